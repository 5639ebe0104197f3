(** The rational numbers, with the thresholds used by the code: values for examples with small numbers. *)
From Verif Require Import Base Ring SpecIndex Dense IndexProofs.
From Coq Require Import QArith Qabs Qcanon Lqa.

Definition ring_Qc : ring.
Proof.
  refine {| rT := Qc; rz := 0%Qc; ro := 1%Qc; radd := Qcplus; rmul := Qcmult; ropp := Qcopp; rconj := fun x => x; reqb := Qc_eq_bool |}; intros; try ring; auto.
  split; [apply Qc_eq_bool_correct|]. intros ->. unfold Qc_eq_bool. destruct (Qc_eq_dec y y); congruence.
Defined.

(** Euclidean norm larger than 1e-4; the squares are compared. *)
Definition qc_signif (d : dense ring_Qc) : bool := negb (Qle_bool (this (sumf ring_Qc (fun i => rmul (dv d i) (dv d i)) (idxs (dsh d)))) (1 # 100000000)).
(** The defaults of [torch::allclose]: relative tolerance 1e-5, absolute tolerance 1e-8. *)
Definition qc_near (x y : ring_Qc) : bool := Qle_bool (Qabs (this x - this y)) ((1 # 100000000) + (1 # 100000) * Qabs (this y)).

Lemma qc_near_refl x : qc_near x x = true.
Proof.
  unfold qc_near. apply Qle_bool_iff. setoid_replace (this x - this x)%Q with 0%Q by ring. pose proof (Qabs_nonneg (this x)) as H. change (Qabs 0) with 0%Q. lra.
Qed.
Lemma qc_add (a b : ring_Qc) : (this (radd a b) == this a + this b)%Q. Proof. apply Qred_correct. Qed.
Lemma qc_mul (a b : ring_Qc) : (this (rmul a b) == this a * this b)%Q. Proof. apply Qred_correct. Qed.
Lemma sq_nonneg (x : Q) : (0 <= x * x)%Q.
Proof. destruct (Qlt_le_dec x 0) as [H|H]; [|apply Qmult_le_0_compat; exact H]. setoid_replace (x * x)%Q with ((- x) * (- x))%Q by ring. apply Qmult_le_0_compat; lra. Qed.
Lemma sum_bound {A} (f : A -> ring_Qc) l : (forall a, In a l -> 0 <= this (f a))%Q -> forall a, In a l -> (this (f a) <= this (sumf ring_Qc f l))%Q.
Proof.
  intros H a. induction l as [|b l IH]; [intros []|].
  assert (H0 : (0 <= this (sumf ring_Qc f l))%Q).
  { clear IH. assert (H' : forall a, In a l -> (0 <= this (f a))%Q) by (intros; apply H; right; auto). clear H. induction l as [|c l IH]; [apply Qle_refl|]. rewrite sumf_cons. rewrite qc_add. assert (0 <= this (f c))%Q by (apply H'; left; auto). assert (0 <= this (sumf ring_Qc f l))%Q by (apply IH; intros; apply H'; right; auto). lra. }
  rewrite sumf_cons. rewrite qc_add. assert (0 <= this (f b))%Q by (apply H; left; auto). intros [<-|Ha]; [lra|].
  assert (this (f a) <= this (sumf ring_Qc f l))%Q by (apply IH; [intros; apply H; right; auto|exact Ha]). lra.
Qed.
(** An entry above the cutoff is enough. *)
Lemma qc_visible (x : ring_Qc) : ((1 # 100000000) < this x * this x)%Q -> forall d i, in_range (dsh d) i = true -> dv d i = x -> qc_signif d = true.
Proof.
  intros H d i Hi E. unfold qc_signif. apply negb_true_iff, not_true_iff_false. intros H'. apply Qle_bool_iff in H'.
  assert (B : (this (rmul (dv d i) (dv d i)) <= this (sumf ring_Qc (fun i => rmul (dv d i) (dv d i)) (idxs (dsh d))))%Q).
  { apply (sum_bound (fun i => rmul (dv d i) (dv d i))); [|apply idxs_In; exact Hi]. intros j _. rewrite qc_mul. apply sq_nonneg. }
  rewrite E, qc_mul in B. lra.
Qed.
(** A block whose only entry other than zero is below the cutoff. *)
Lemma qc_faint (x : ring_Qc) (d : dense ring_Qc) : (this x * this x <= (1 # 100000000))%Q ->
  (forall i, in_range (dsh d) i = true -> dv d i = rz \/ dv d i = x) ->
  (forall i j, in_range (dsh d) i = true -> in_range (dsh d) j = true -> dv d i <> rz -> dv d j <> rz -> i = j) -> qc_signif d = false.
Proof.
  intros Hx H1 H2. unfold qc_signif. apply negb_false_iff, Qle_bool_iff.
  destruct (existsb (fun i => negb (reqb (dv d i) rz)) (idxs (dsh d))) eqn:E.
  - apply existsb_exists in E as (i & Hi & E). apply idxs_In in Hi. assert (N : dv d i <> rz) by (intros E'; apply (reqb_spec ring_Qc) in E'; rewrite E' in E; discriminate).
    rewrite (@sumf_single ring_Qc _ (fun i => rmul (dv d i) (dv d i)) _ i); [|apply idxs_NoDup|apply idxs_In; exact Hi|].
    + destruct (H1 i Hi) as [?|Ex]; [contradiction|]. rewrite Ex, qc_mul. exact Hx.
    + intros j Hj Nj. apply idxs_In in Hj. destruct (reqb (dv d j) rz) eqn:Ej; [apply (reqb_spec ring_Qc) in Ej; rewrite Ej; apply rmul_0_l|].
      exfalso. apply Nj. apply H2; auto. intros Ej'. apply (reqb_spec ring_Qc) in Ej'. congruence.
  - rewrite sumf_zero; [discriminate|]. intros i Hi. destruct (reqb (dv d i) rz) eqn:Ei; [apply (reqb_spec ring_Qc) in Ei; rewrite Ei; apply rmul_0_l|].
    assert (X : existsb (fun i => negb (reqb (dv d i) rz)) (idxs (dsh d)) = true) by (apply existsb_exists; exists i; split; [exact Hi|rewrite Ei; reflexivity]). congruence.
Qed.
(** n / d *)
Definition qc (n : Z) (d : positive) : ring_Qc := Q2Qc (n # d).
Definition qc_quarter (x : ring_Qc) : ring_Qc := rmul x (qc 1 4).
