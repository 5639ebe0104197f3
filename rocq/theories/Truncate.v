(** Model of the truncation helpers of sources/LinearAlgebra.cpp.

    The tensor of values is a batch of rows ([Ellipsis] ranges over the rows); [wt x] stands for [|x|^pow], an element of an
    ordered monoid of non-negative weights, and [thr] for the value the weights are compared with ([tol^pow] in
    [compute_last_index], [tol] in [compute_first_index_ascending]). Floating point rounding and NaN are not modelled. *)
From Verif Require Import Base.
Set Implicit Arguments.

Record weights := mkWeights {
  wT :> Type;
  wz : wT;
  wadd : wT -> wT -> wT;
  wgtb : wT -> wT -> bool;
  wadd_assoc : forall a b c, wadd a (wadd b c) = wadd (wadd a b) c;
  wadd_comm : forall a b, wadd a b = wadd b a;
  wadd_0 : forall a, wadd wz a = a;
  (** weights are non-negative: adding one does not bring a sum back under a threshold *)
  wgtb_mono : forall a b t, wgtb a t = true -> wgtb (wadd b a) t = true
}.
Arguments wz {w}. Arguments wadd {w}. Arguments wgtb {w}.

Definition w_N : weights.
Proof.
  refine (@mkWeights N 0%N N.add (fun a b => N.ltb b a) N.add_assoc N.add_comm N.add_0_l _).
  intros a b t H. apply N.ltb_lt in H. apply N.ltb_lt. lia.
Defined.

(** Conversion of an [int64_t] to [size_t] in a mixed comparison or subtraction. *)
Definition u64 (z : Z) : Z := (z mod 2 ^ 64)%Z.

Section M.
  Context {W : weights}.
  Context {X : Type}.
  Variable wt : X -> W.

  (** [d.index({Ellipsis, i})] : torch accepts [-L <= i < L], counting from the end when negative, and throws otherwise. *)
  Definition t_index (L : nat) (d : list (list X)) (i : Z) : result (list W) :=
    if ((- Z.of_nat L <=? i) && (i <? Z.of_nat L))%Z then
      let j := Z.to_nat (if (i <? 0)%Z then (i + Z.of_nat L)%Z else i) in
      rmap (map wt) (fold_right (fun row acc =>
         do a <- acc ; match nth_error row j with Some x => Ok (x :: a) | None => UB end) (Ok []) d)
    else Throw TorchError.

  (** [(trunc_val > tol).any()] *)
  Definition any_gt (t : list W) (thr : W) : bool := existsb (fun w => wgtb w thr) t.
  (** [trunc_val += ...] *)
  Fixpoint vadd (a b : list W) : list W :=
    match a, b with x :: a, y :: b => wadd x y :: vadd a b | _, _ => [] end.

  (** sources/LinearAlgebra.cpp:66-73, the loop; [None] on exhausted fuel. *)
  Fixpoint last_loop (fuel : nat) (L : nat) (d : list (list X)) (thr : W) (mn mx : Z) (last : Z) (trunc : list W) : option (result Z) :=
    match fuel with
    | 0 => None
    | S f =>
        if (mn <=? u64 last)%Z then
          if any_gt trunc thr && (u64 last <? mx)%Z then Some (Ok last)
          else match t_index L d (last - 1)%Z with
               | Ok t => last_loop f L d thr mn mx (last - 1)%Z (vadd trunc t)
               | Throw e => Some (Throw e)
               | UB => Some UB
               end
        else Some (Ok last)
    end.
  (** sources/LinearAlgebra.cpp:57-75 [compute_last_index]; [L] is the size of the last dimension. *)
  Definition compute_last_index (L : nat) (d : list (list X)) (thr : W) (mn mx : Z) : option (result Z) :=
    match t_index L d (Z.of_nat L - 1)%Z with
    | Ok t => last_loop (2 * L + 2) L d thr mn mx (Z.of_nat L - 1)%Z t
    | Throw e => Some (Throw e)
    | UB => Some UB
    end.

  (** sources/LinearAlgebra.cpp:36-44, the loop of [compute_first_index_ascending]. *)
  Fixpoint first_loop (fuel : nat) (L : nat) (d : list (list X)) (thr : W) (min_index max_index : Z) (first : Z) (trunc : list W) : option (result Z) :=
    match fuel with
    | 0 => None
    | S f =>
        if (u64 first <=? min_index)%Z then
          if any_gt trunc thr && (max_index <=? u64 first)%Z then Some (Ok first)
          else match t_index L d (first + 1)%Z with
               | Ok t => first_loop f L d thr min_index max_index (first + 1)%Z (vadd trunc t)
               | Throw e => Some (Throw e)
               | UB => Some UB
               end
        else Some (Ok first)
    end.
  (** sources/LinearAlgebra.cpp:23-45; [Last_dim_size - min_size] is an unsigned subtraction. *)
  Definition compute_first_index_ascending (L : nat) (d : list (list X)) (thr : W) (mn mx : Z) : option (result Z) :=
    match t_index L d 0%Z with
    | Ok t => first_loop (L + 2) L d thr (u64 (Z.of_nat L - mn)) (u64 (Z.of_nat L - mx)) 0%Z t
    | Throw e => Some (Throw e)
    | UB => Some UB
    end.

  (** [x.index({Ellipsis, Slice(None, n)})] *)
  Definition t_slice (n : Z) (d : list (list X)) : list (list X) :=
    map (fun row => firstn (Z.to_nat (if (n <? 0)%Z then n + Z.of_nat (length row) else n)%Z) row) d.

  (** sources/LinearAlgebra.cpp:77-84 [truncate(u, d, v, ...)] *)
  Definition truncate3 (L : nat) (u d v : list (list X)) (thr : W) (mn mx : Z) : option (result (list (list X) * list (list X) * list (list X))) :=
    option_map (rmap (fun last => (t_slice (last + 1) u, t_slice (last + 1) d, t_slice (last + 1) v)%Z)) (compute_last_index L d thr mn mx).

  (** sources/LinearAlgebra.cpp:98-103 [truncate(e, u, ...)]: truncates by the first argument and returns the second first.
      [Le] is the last dimension of [e]. *)
  Definition truncate2 (Le : nat) (e u : list (list X)) (thr : W) (mn mx : Z) : option (result (list (list X) * list (list X))) :=
    option_map (rmap (fun last => (t_slice (last + 1) u, t_slice (last + 1) e)%Z)) (compute_last_index Le e thr mn mx).
  (** sources/LinearAlgebra.cpp:87-91 [truncate(tuple(d, u), ...)], as called by the truncated [eigh]: calls [truncate(u, d)]. *)
  Definition truncate_pair (Lu : nat) (d u : list (list X)) (thr : W) (mn mx : Z) : option (result (list (list X) * list (list X))) :=
    truncate2 Lu u d thr mn mx.
End M.
