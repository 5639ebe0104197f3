(** Model of the compression of an operator chain, sources/MPT.cpp:154-168. Model only. As in [Chain] and [MoveOc] the functions
    take the tensor operations they call. Results are [None] when a loop of the truncation runs out of fuel (see BTrunc.v). The
    chain left behind by a call that throws half way is not modelled. *)
From Verif Require Import Base Quantity Ring Index SpecIndex Dense BTensor BTensorArith Tensordot SpecTensordot Bcast Chain BSvd Truncate BTrunc.
Set Implicit Arguments.

Section Alg.
  Variable T : Type.
  Variable tsvd : T -> nat -> option (result (T * T * T)).
  Variable tmul : T -> T -> result T.
  Variable tdot : T -> T -> list nat -> list nat -> result T.
  Variable tconj : T -> T.
  Variable tperm : list nat -> T -> result T.

  (** sources/MPT.cpp:160-166, one turn of the loop: new tensors at [it] and [next_it]. *)
  Definition coalesce_step (it next : T) : option (result (T * T)) :=
    obind (Some (tperm [0; 1; 3; 2] it)) (fun tens =>
    obind (tsvd tens 3) (fun UdV =>
      let '(U, d, V) := UdV in
      obind (Some (tmul U d)) (fun U =>
      obind (Some (tdot (tconj V) next [0] [0])) (fun next' =>
      obind (Some (tperm [0; 1; 3; 2] U)) (fun it' => Some (Ok (it', next'))))))).
  (** sources/MPT.cpp:158-167, the loop; [it]: the tensor it is at, [l]: those behind it. *)
  Fixpoint coalesce_loop (it : T) (l : list T) : option (result (list T)) :=
    match l with
    | [] => Some (Ok [it])
    | next :: l => obind (coalesce_step it next) (fun r => obind (coalesce_loop (snd r) l) (fun l => Some (Ok (fst r :: l))))
    end.
  (** sources/MPT.cpp:154-168. Without tensors [next_it] is past the end, never meets it, and [begin()] is read. *)
  Definition coalesce_with (l : list T) : option (result (list T)) :=
    match l with [] => Some UB | it :: l => coalesce_loop it l end.
End Alg.

(** sources/MPT.cpp:154-168 [bMPO::coalesce]; [thr] for the square of the cutoff (see BTrunc.v). *)
Definition coalesce {G : abgroup} {R : ring} {W : weights} (imax : nat) gtb lower (wt : R -> W) dsvd (l : list (btensor G R)) (thr : W) : option (result (list (btensor G R))) :=
  coalesce_with (fun A s => svd_tol gtb lower wt dsvd A s thr) b_mul_ (tensordot imax) (@conj G R) b_perm l.
