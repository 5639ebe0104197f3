(** Lemmas about operations of block tensors with scalars. *)
From Verif Require Import Base Quantity QuantityProofs FlatMap SpecFlatMap FlatMapProofs Ring Index SpecIndex IndexProofs Dense BTensor SpecBTensor BTensorProofs BTensorThms BTensorEx BTensorArith ArithProofs ScalarOps SpecScalarOps.
Set Implicit Arguments.

Section L.
  Context {G : abgroup} {R : ring}.
  Implicit Types T : btensor G R.
  Variable leb : R -> R -> bool.

  Lemma test_iff r (x y : R) : t_test leb r x y = true <-> relates leb r x y.
  Proof.
    assert (E : reqb x y = true <-> x = y) by apply reqb_spec.
    destruct r; cbn; rewrite ?andb_true_iff, ?negb_true_iff, <- ?Bool.not_true_iff_false, ?E; tauto.
  Qed.
  Lemma bool_truth r (x y : R) : @truth_of R (relates leb r x y) (t_bool (t_test leb r x y)).
  Proof. pose proof (test_iff r x y) as I. destruct (t_test leb r x y); [left|right]; split; try reflexivity; [apply I; reflexivity|]. intros H. apply I in H. discriminate. Qed.

  Definition flip (r : cmp) : cmp := match r with CGt => CLt | CLt => CGt | CLe => CGe | CGe => CLe | CEq => CEq | CNe => CNe end.
  Lemma flip_relates r (x c : R) : relates leb (flip r) x c <-> relates leb r c x.
  Proof. destruct r; cbn; intuition congruence. Qed.

  Lemma map_stored (f : R -> R) T k t : In (k, t) (b_blocks T) -> In (k, d_map f t) (b_blocks (bt_elementwise f T)).
  Proof. intros I. apply (in_map (fun e => (fst e, d_map f (snd e))) _ _ I). Qed.
  Lemma map_keys (f : R -> R) T : map fst (b_blocks (bt_elementwise f T)) = map fst (b_blocks T).
  Proof. cbn. rewrite map_map. reflexivity. Qed.

  Lemma cmp_ok r T (c : R) : valid T ->
    valid (m_cmp leb r T c) /\ same_meta T (m_cmp leb r T c) /\ map fst (b_blocks (m_cmp leb r T c)) = map fst (b_blocks T) /\
    forall k t, In (k, t) (b_blocks T) -> exists t', In (k, t') (b_blocks (m_cmp leb r T c)) /\ dsh t' = dsh t /\ forall o, truth_of (relates leb r (dv t o) c) (dv t' o).
  Proof.
    intros HV. destruct (elementwise_valid (fun x => t_bool (t_test leb r x c)) HV) as [V M]. split; [exact V|]. split; [exact M|]. split; [apply map_keys|].
    intros k t I. eexists. split; [apply map_stored, I|]. split; [reflexivity|]. intros o. apply bool_truth.
  Qed.
  Lemma scmp_ok r (c : R) T : valid T ->
    valid (s_cmp leb r c T) /\ same_meta T (s_cmp leb r c T) /\ map fst (b_blocks (s_cmp leb r c T)) = map fst (b_blocks T) /\
    forall k t, In (k, t) (b_blocks T) -> exists t', In (k, t') (b_blocks (s_cmp leb r c T)) /\ dsh t' = dsh t /\ forall o, truth_of (relates leb r c (dv t o)) (dv t' o).
  Proof.
    intros HV. destruct (@cmp_ok (flip r) T c HV) as (A & B & C & D). split; [exact A|]. split; [exact B|]. split; [exact C|].
    intros k t I. destruct (D k t I) as (t' & I' & S & F). exists t'. split; [exact I'|]. split; [exact S|]. intros o. specialize (F o). unfold truth_of in *. rewrite flip_relates in F. exact F.
  Qed.
  (** The dense comparison exactly when zero does not relate to the scalar, or nothing is missing. *)
  Lemma cmp_dense r T (c : R) D : ro <> (rz : R) -> valid T -> dense_form T D ->
    (dense_form (m_cmp leb r T c) (d_map (fun x => t_bool (t_test leb r x c)) D) <->
     ~ relates leb r rz c \/ forall b o, in_range (b_sbd T) b = true -> in_range (pick 0 (legs T) b) o = true -> assoc leqb b (b_blocks T) <> None).
  Proof.
    intros NZ HV HD. unfold m_cmp. rewrite (elementwise_iff (fun x => t_bool (t_test leb r x c)) HV HD).
    assert (Q : t_bool (t_test leb r rz c) = (rz : R) <-> ~ relates leb r rz c). { rewrite <- test_iff. destruct (t_test leb r rz c); cbn; intuition congruence. }
    rewrite Q. reflexivity.
  Qed.

  Lemma truth_unique (P : Prop) (v w : R) : truth_of P v -> truth_of P w -> v = w.
  Proof. unfold truth_of. intuition congruence. Qed.
  Lemma cmp_full r T (c : R) D : ro <> (rz : R) -> valid T -> dense_form T D ->
    ((exists D', dense_form (m_cmp leb r T c) D' /\ dsh D' = dsh D /\ forall i, truth_of (relates leb r (dv D i) c) (dv D' i)) <->
     ~ relates leb r rz c \/ forall b o, in_range (b_sbd T) b = true -> in_range (pick 0 (legs T) b) o = true -> assoc leqb b (b_blocks T) <> None).
  Proof.
    intros NZ HV HD. rewrite <- (@cmp_dense r T c D NZ HV HD). split.
    - intros (D' & F & S & E). destruct (@cmp_ok r T c HV) as ([M _] & _). apply (dense_form_deq M F). split; [exact S|].
      intros i _. apply (truth_unique (E i)). apply bool_truth.
    - intros F. eexists. split; [exact F|]. split; [reflexivity|]. intros i. apply bool_truth.
  Qed.

  Lemma nan_loop_ok (nan : R -> bool) l : nan_loop nan l false = true <-> exists k t i, In (k, t) l /\ in_range (dsh t) i = true /\ nan (dv t i) = true.
  Proof.
    induction l as [|[k t] l IH]; cbn; [split; [discriminate|intros (? & ? & ? & [] & _)]|]. destruct (existsb (fun i => nan (dv t i)) (idxs (dsh t))) eqn:E.
    - split; [intros _|reflexivity]. apply existsb_exists in E as (i & I & N). apply idxs_In in I. exists k, t, i. auto.
    - rewrite IH. split; [intros (k' & t' & i & I & Q); exists k', t', i; auto|]. intros (k' & t' & i & [[= <- <-]|I] & Rn & N); [|exists k', t', i; auto].
      apply Bool.not_true_iff_false in E. destruct E. apply existsb_exists. exists i. split; [apply idxs_In, Rn|exact N].
  Qed.
  Lemma anynan_ok (nan : R -> bool) T : anynan nan T = true <-> exists k t i, In (k, t) (b_blocks T) /\ in_range (dsh t) i = true /\ nan (dv t i) = true.
  Proof. apply nan_loop_ok. Qed.
  Lemma s_div_ub (c : R) T : b_blocks T <> [] -> s_div c T = UB.
  Proof. unfold s_div. destruct (b_blocks T); [congruence|reflexivity]. Qed.
End L.

Section D.
  Context {G : abgroup} {R : ring}.
  Add Ring Rr : (ring_th R).
  Variable div : R -> R -> R.
  Hypothesis div_mul : forall x c : R, c <> rz -> rmul (div x c) c = x.
  Lemma div0 (c : R) : c <> rz -> div rz c = rz.
  Proof.
    intros NZ. transitivity (rmul (rmul (div rz c) c) (div ro c)); [|rewrite (div_mul rz NZ); ring].
    transitivity (rmul (div rz c) (rmul (div ro c) c)); [rewrite (div_mul ro NZ)|]; ring.
  Qed.
  Lemma div_ok (T : btensor G R) (c : R) D : c <> rz -> valid T -> dense_form T D ->
    valid (m_div div T c) /\ same_meta T (m_div div T c) /\ dense_form (m_div div T c) (d_map (fun x => div x c) D).
  Proof.
    intros NZ HV HD. destruct (elementwise_valid (fun x => div x c) HV) as [V M]. split; [exact V|]. split; [exact M|].
    apply elementwise_iff; auto. left. apply div0, NZ.
  Qed.
  Lemma div_in_ok (T : btensor G R) (c : R) D : c <> rz -> valid T -> dense_form T D ->
    valid (m_div_ div T c) /\ same_meta T (m_div_ div T c) /\
    exists Q, dense_form (m_div_ div T c) Q /\ dsh Q = dsh D /\ forall i, dv Q i = div (dv D i) c.
  Proof.
    intros NZ HV HD. destruct (elementwise_valid (fun x => rmul x (div ro c)) HV) as [V M]. split; [exact V|]. split; [exact M|].
    exists (d_map (fun x => rmul x (div ro c)) D). split; [apply elementwise_iff; auto; left; ring|]. split; [reflexivity|].
    intros i. cbn. transitivity (rmul (rmul (div (dv D i) c) c) (div ro c)); [rewrite (div_mul _ NZ); ring|].
    transitivity (rmul (div (dv D i) c) (rmul (div ro c) c)); [ring|]. rewrite (div_mul ro NZ). ring.
  Qed.
End D.
