(** Broadcasting of block tensors: dimensions are aligned at the last one, a missing dimension counts as one section of size
    one and neutral quantity. *)
From Verif Require Import Base Quantity QuantityProofs Ring SpecFlatMap Index SpecIndex Dense BTensor SpecBTensor Bcast.
Set Implicit Arguments.

(** Leading dimensions of one section of size one, up to [n] dimensions. *)
Definition pad (n : nat) (L : list (list nat)) : list (list nat) := repeat [1] (n - length L) ++ L.
Definition qpad {G : abgroup} (n : nat) (Q : list (list G)) : list (list G) := repeat [qe G] (n - length Q) ++ Q.

(** Dimensions that can be combined, [n] of them: equal, or one of them of size one. *)
Definition bc_compat (n : nat) (A B : list (list nat)) : Prop :=
  forall d, d < n -> let a := nth d (pad n A) [] in let b := nth d (pad n B) [] in a = b \/ a = [1] \/ b = [1].
(** A dimension that both tensors have, where one section of another size than one, or no section at all, meets size one.
    [A] is the tensor with more dimensions. *)
Definition bc_bad (n : nat) (A B : list (list nat)) : Prop :=
  exists d, n - length B <= d < n /\ let a := nth d (pad n A) [] in let b := nth d (pad n B) [] in
    (b = [1] /\ (a = [] \/ exists m, m <> 1 /\ a = [m])) \/ (a = [1] /\ b = []).

(** Combined dimension: sizes, and products of the quantities. *)
Definition sel {A} (l : list A) (i : nat) : nat := if length l =? 1 then 0 else i.
Definition bleg (a b : list nat) : list nat := if leqb a [1] then b else a.
Definition bqleg {G : abgroup} (a b : list G) : list G :=
  map (fun i => qop G (nth (sel a i) a (qe G)) (nth (sel b i) b (qe G))) (seq 0 (if length a =? 1 then length b else length a)).
(** The block of a tensor with dimensions [L] that is used for block [b] of the result. *)
Definition bsel (L : list (list nat)) (b : list nat) : list nat := map2 sel L (skipn (length b - length L) b).
Definition stores {G : abgroup} {R : ring} (T : btensor G R) (b : list nat) : Prop := exists x, assoc leqb b (b_blocks T) = Some x.

Section S.
  Variable G : abgroup.
  Variable R : ring.
  (** Element-wise [f] over the blocks that both tensors store. *)
  Definition bcast_of (f : R -> R -> R) (A B C : btensor G R) : Prop :=
    let n := Nat.max (b_rank A) (b_rank B) in
    valid C /\ b_rule C = qop G (b_rule A) (b_rule B) /\
    legs C = map2 bleg (pad n (legs A)) (pad n (legs B)) /\ qlegs C = map2 bqleg (qpad n (qlegs A)) (qpad n (qlegs B)) /\
    (forall b, in_range (b_sbd C) b = true -> (stores C b <-> stores A (bsel (legs A) b) /\ stores B (bsel (legs B) b))) /\
    (forall b o, stores C b ->
       bentry C b o = f (bentry A (bsel (legs A) b) (bproj (pick 0 (legs A) (bsel (legs A) b)) o))
                        (bentry B (bsel (legs B) b) (bproj (pick 0 (legs B) (bsel (legs B) b)) o))).
  (** Compatible, and none of the dimensions the code gets wrong. *)
  Definition bc_ok (A B : btensor G R) : Prop :=
    let n := Nat.max (b_rank A) (b_rank B) in
    bc_compat n (legs A) (legs B) /\
    if b_rank B <=? b_rank A then ~ bc_bad n (legs A) (legs B) else ~ bc_bad n (legs B) (legs A).
End S.
