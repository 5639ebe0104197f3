(** Configurations of a chain: one quantity chosen at each site. *)
From Verif Require Import Base Quantity QuantityProofs Ring SpecIndex IndexProofs.
From Coq Require Import Lia.
Set Implicit Arguments.

Definition config {G : abgroup} (phys : list (list G)) (total : G) (o : list nat) : Prop :=
  length o = length phys /\ (forall i, i < length phys -> nth i o 0 < length (nth i phys [])) /\ qprod G (pick (qe G) phys o) = total.

(** The integers of a site: exactly lo, lo + d, ..., lo + d m (in any order, with repetitions). *)
Definition steps (d : Z) (s : Z * nat) (cv : list z_group) : Prop :=
  (forall v, In v cv -> exists k, k <= snd s /\ proj1_sig v = (fst s + d * Z.of_nat k)%Z) /\
  (forall k, k <= snd s -> exists v, In v cv /\ proj1_sig v = (fst s + d * Z.of_nat k)%Z).
Definition lows (S : list (Z * nat)) : Z := fold_right (fun s a => (fst s + a)%Z) 0%Z S.
Definition counts (S : list (Z * nat)) : Z := fold_right (fun s a => (Z.of_nat (snd s) + a)%Z) 0%Z S.
(** Largest absolute value of a sum of quantities, at most one per site. *)
Definition reach (d : Z) (S : list (Z * nat)) : Z :=
  fold_right (fun s a => (Z.max (Z.abs (fst s)) (Z.abs (fst s + d * Z.of_nat (snd s))) + a)%Z) 0%Z S.
