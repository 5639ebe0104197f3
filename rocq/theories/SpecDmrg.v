(** What the DMRG driver should do, independent of its loops. *)
From Verif Require Import Base Dmrg.
Set Implicit Arguments.

Section S.
  Variables S E : Type.
  Variable lenv : nat -> S -> E -> E.
  Variable renv : nat -> S -> E -> E.
  Variables ledge redge : E.

  (** Environment of a list of sites absorbed one by one from the left, the first being at position [i]. *)
  Fixpoint from_left (i : nat) (e : E) (l : list S) : E :=
    match l with [] => e | s :: l => from_left (Datatypes.S i) (lenv i s e) l end.
  (** Environment of a list of sites absorbed from the right; the first of the list is at position [i]. *)
  Fixpoint from_right (i : nat) (e : E) (l : list S) : E :=
    match l with [] => e | s :: l => renv i s (from_right (Datatypes.S i) e l) end.
  (** All the sites before position [k]; all the sites from position [k] on. *)
  Definition left_env (sites : list S) (k : nat) : E := from_left 0 ledge (firstn k sites).
  Definition right_env (sites : list S) (k : nat) : E := from_right k redge (skipn k sites).

  (** Mixed-canonical gauge with centre [c]. *)
  Definition gauge (lo ro : S -> Prop) (sites : list S) (c : Z) : Prop :=
    forall i s, nth_error sites i = Some s -> ((Z.of_nat i < c)%Z -> lo s) /\ ((Z.of_nat i > c)%Z -> ro s).

  (** A call of the updater is on an existing pair of neighbours and reads the environments of the sites as they are. *)
  Definition good_call (L : nat) (c : call S E) : Prop :=
    (0 <= c_oc c)%Z /\ (c_oc c + 1 < Z.of_nat L)%Z /\ length (c_sites c) = L /\
    c_left c = left_env (c_sites c) (Z.to_nat (c_oc c)) /\ c_right c = right_env (c_sites c) (Z.to_nat (c_oc c) + 2).

  (** The environments that are current when the label is at [p]. *)
  Definition env_inv (L p : nat) (st : dst S E) : Prop :=
    d_oc st = Z.of_nat p /\ length (d_sites st) = L /\ length (d_env st) = L + 2 /\
    (forall i, i <= p -> nth_error (d_env st) i = Some (left_env (d_sites st) i)) /\
    (forall i, p + 2 <= i <= L -> nth_error (d_env st) (i + 1) = Some (right_env (d_sites st) i)).

  (** Number of updates of bond [b]. *)
  Definition updates (b : Z) (l : list (call S E)) : nat := length (filter (fun c => (c_oc c =? b)%Z) l).

  (** Updates in one round trip over [M] bonds; where the centre really is after a round trip started at [p]. *)
  Definition round_trip (M : nat) : nat := if M =? 1 then 2 else 2 * (M - 1).
  Definition true_centre (M p : nat) : Z := if p =? M - 1 then Z.of_nat p else (Z.of_nat p + 1)%Z.
  (** Direction of the driver for a label [p] over [M] bonds. *)
  Definition start_dir (M p : nat) : Z := if M =? 1 then 0%Z else if p =? 0 then 1%Z else (-1)%Z.
  (** A good round trip: every call is good, end bonds are updated once (the only bond of a two-site chain twice), inner bonds twice. *)
  Definition good_sweep (M : nat) (log : list (call S E)) : Prop :=
    length log = round_trip M /\ Forall (good_call (M + 1)) log /\
    forall b, b < M -> updates (Z.of_nat b) log = if negb (M =? 1) && ((b =? 0) || (b =? M - 1)) then 1 else 2.
End S.
