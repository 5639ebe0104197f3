(** Proofs about the eigenvalue problem of two vectors. *)
From Verif Require Import Base Ring BTensor Num Eig2 SpecEig2.
From Coq Require Import Field.
Set Implicit Arguments.

Section E.
  Variable N : numeric.
  Lemma field_th : field_theory (@rz N) ro radd rmul rsub ropp (ndiv N) (n_inv N) eq.
  Proof. constructor; [apply ring_th|apply n_one|reflexivity|]. intros p H. rewrite rmul_comm. apply n_inv_ok, H. Qed.
  Add Ring Rr : (ring_th N).
  Add Field Nf : field_th.
  Local Open Scope R_scope.
  Notation nn x := (n_leb N rz x = true).
  Notation "2" := (two N).

  Lemma eqb_refl (x : N) : reqb x x = true. Proof. apply reqb_spec. reflexivity. Qed.
  Lemma eqb_neq (x y : N) : x <> y -> reqb x y = false.
  Proof. intros H. destruct (reqb x y) eqn:E; [apply reqb_spec in E; congruence|reflexivity]. Qed.
  (** If c c = p p + q with c, q not negative then c - p is not negative. *)
  Lemma root_above (p c q : N) : rconj p = p -> nn c -> nn q -> c * c = p * p + q -> nn (rsub c p).
  Proof.
    intros Rp Hc Hq E. pose proof (n_nn_conj N c Hc) as Rc.
    destruct (@n_total N (rsub c p)) as [H|H]; [apply real_sub; auto|exact H|].
    assert (Hp : nn p) by (replace p with (c + - rsub c p) by (unfold rsub; ring); apply n_nn_add; auto).
    assert (F : rsub c p * (c + p) = q) by (transitivity (c * c + - (p * p)); [unfold rsub; ring|rewrite E; ring]).
    assert (Z : q = rz). { apply n_anti; [exact Hq|]. rewrite <- F. replace (- (rsub c p * (c + p))) with (- rsub c p * (c + p)) by ring. apply n_nn_mul; [exact H|apply n_nn_add; auto]. }
    rewrite Z in F. apply mul_zero in F as [F|F]; [rewrite F; apply nn0|].
    assert (c = rz) as -> by (apply nn_sum_zero with p; auto). assert (p = rz) as -> by (apply nn_sum_zero with (rz : N); auto using nn0; transitivity (rz + p); [ring|exact F]). replace (rsub rz rz) with (rz : N) by (unfold rsub; ring). apply nn0.
  Qed.
  Lemma nn_two : nn 2. Proof. apply n_nn_add; apply nn1. Qed.

  Lemma nn_four (b : N) : nn (2 * 2 * (rconj b * b)). Proof. apply n_nn_mul; [apply n_nn_mul; apply nn_two|apply n_nn_sq]. Qed.
  Lemma half (x : N) : nn (2 * x) -> nn x. Proof. apply nn_factor; [apply nn_two|apply two_neq]. Qed.

  (** A matrix with w v = |b|^2, w and v not negative, is not negative. *)
  Lemma form_nn (w v b x y : N) : nn w -> nn v -> w * v = rconj b * b -> nn (form2 w v b x y).
  Proof.
    intros Hw Hv E. destruct (eq_dec N v rz) as [->|Z].
    - assert (b = rz) as -> by (apply sq_zero; rewrite <- E; ring). unfold form2. rewrite conj0. replace (_ + _ + _ + _) with (w * (rconj x * x)) by ring. apply n_nn_mul; [exact Hw|apply n_nn_sq].
    - apply nn_factor with v; auto. replace (v * form2 w v b x y) with (rconj (b * x + v * y) * (b * x + v * y)); [apply n_nn_sq|].
      rewrite rconj_add, !rconj_mul, (n_nn_conj N v Hv). unfold form2. transitivity ((w * v) * (rconj x * x) + v * rconj x * (rconj b * y) + v * rconj y * (b * x) + v * v * (rconj y * y)); [rewrite E|]; ring.
  Qed.
  Lemma form_shift (a0 a1 b E x y : N) : form2 a0 a1 b x y = form2 (rsub a0 E) (rsub a1 E) b x y + E * norm2 x y.
  Proof. unfold form2, norm2, rsub. ring. Qed.

  Section Run.
    Variables a0 a1 b : N.
    Hypothesis R0 : rconj a0 = a0.
    Hypothesis R1 : rconj a1 = a1.
    Let p := rsub a0 a1.
    Let s := p * p + (2 * 2) * (rconj b * b).
    Let c := n_sqrt N s.
    Let E := ndiv N (a0 + a1 + - c) 2.
    Lemma run_facts : rconj p = p /\ nn s /\ nn c /\ c * c = s /\ nn (rsub c p) /\ nn (c + p) /\ rsub c p * (c + p) = 2 * 2 * (rconj b * b).
    Proof.
      assert (Rp : rconj p = p) by (apply real_sub; auto).
      assert (Hq : nn (2 * 2 * (rconj b * b))) by apply nn_four.
      assert (Hs : nn s) by (apply n_nn_add; [apply nn_real_sq, Rp|exact Hq]).
      assert (Hc : nn c) by (apply n_sqrt_nn, Hs). assert (Ec : c * c = s) by (apply n_sqrt_sq, Hs).
      split; [exact Rp|]. split; [exact Hs|]. split; [exact Hc|]. split; [exact Ec|]. split; [apply root_above with (2 * 2 * (rconj b * b)); auto|]. split.
      - replace (c + p) with (rsub c (- p)) by (unfold rsub; ring). apply root_above with (2 * 2 * (rconj b * b)); auto; [rewrite conj_opp, Rp; reflexivity|]. rewrite Ec. unfold s. ring.
      - transitivity (c * c + - (p * p)); [unfold rsub; ring|]. rewrite Ec. unfold s. ring.
    Qed.
    Lemma E_facts : 2 * E = a0 + a1 + - c /\ 2 * rsub a0 E = c + p /\ 2 * rsub a1 E = rsub c p /\ nn (rsub a0 E) /\ nn (rsub a1 E) /\ rsub a0 E * rsub a1 E = rconj b * b.
    Proof.
      destruct run_facts as (Rp & Hs & Hc & Ec & Hu & Hw & Eq).
      assert (H1 : 2 * E = a0 + a1 + - c) by (apply div_mul, two_neq).
      assert (H2 : 2 * rsub a0 E = c + p) by (transitivity (2 * a0 + - (2 * E)); [unfold rsub; ring|rewrite H1; unfold p, rsub, two; ring]).
      assert (H3 : 2 * rsub a1 E = rsub c p) by (transitivity (2 * a1 + - (2 * E)); [unfold rsub; ring|rewrite H1; unfold p, rsub, two; ring]).
      split; [exact H1|]. split; [exact H2|]. split; [exact H3|]. split; [apply half; rewrite H2; exact Hw|]. split; [apply half; rewrite H3; exact Hu|].
      apply (@mul_eq N 2); [apply two_neq|]. apply (@mul_eq N 2); [apply two_neq|]. transitivity ((2 * rsub a1 E) * (2 * rsub a0 E)); [ring|]. rewrite H2, H3, Eq. ring.
    Qed.
    Lemma E_ground x y : le N (E * norm2 x y) (form2 a0 a1 b x y).
    Proof. destruct E_facts as (_ & _ & _ & H1 & H2 & H3). apply le_nn. rewrite (form_shift a0 a1 b E). replace (rsub (form2 _ _ b x y + _) _) with (form2 (rsub a0 E) (rsub a1 E) b x y) by (unfold rsub; ring). apply form_nn; auto. Qed.

    Lemma half_sum (x y : N) : x + y = rz -> rsub x (- y) = rz. Proof. intros <-. unfold rsub. ring. Qed.
    Lemma run_zero : rsub a1 E = rz -> eig2x2 a0 a1 b = Ok (Fin a1, Fin rz, Fin ro) /\ b = rz /\ le N a1 a0.
    Proof.
      intros Z. destruct run_facts as (Rp & Hs & Hc & Ec & Hu & Hw & Eq). destruct E_facts as (H1 & H2 & H3 & H4 & H5 & H6). assert (EE : E = a1) by (transitivity (a1 + - rsub a1 E); [unfold rsub; ring|rewrite Z; ring]).
      assert (B : b = rz) by (apply sq_zero; rewrite <- H6, Z; ring). split; [|split; [exact B|apply le_nn; rewrite <- EE; exact H4]].
      unfold eig2x2. fold p. fold s. cbn [f_sqrt]. rewrite Hs. fold c. cbn [f_opp f_add f_div]. rewrite (eqb_neq (two_neq N)). fold E. cbn [f_add].
      assert (D : E + - a1 = rz) by (rewrite EE; ring). rewrite D. cbn [f_div]. destruct (eq_dec N c rz) as [C|C].
      - rewrite C. replace (- rz) with (rz : N) by ring. rewrite !eqb_refl. cbn. rewrite EE. reflexivity.
      - assert (C' : - c <> rz) by (intros Q; apply C; transitivity (- (- c)); [ring|rewrite Q; ring]). rewrite (eqb_neq C'). cbn [f_sqrt]. assert (Q : ndiv N rz (- c) = rz) by (unfold ndiv; ring). rewrite Q, nn0.
        assert (Q2 : n_sqrt N rz = rz) by (assert (X := n_sqrt_sq N rz (nn0 N)); apply mul_zero in X as [X|X]; exact X). rewrite Q2. cbn. replace (rz + E) with E by ring. rewrite eqb_refl. cbn. rewrite EE. reflexivity.
    Qed.
    Lemma run_regular : rsub a1 E <> rz -> exists o, eig2x2 a0 a1 b = Ok (Fin E, Fin o, Fin (ndiv N (b * o) (E + - a1))) /\ nn o /\ o <> rz /\ c <> rz /\ o * o = ndiv N (rsub a1 E) c.
    Proof.
      intros Z. destruct run_facts as (Rp & Hs & Hc & Ec & Hu & Hw & Eq). destruct E_facts as (H1 & H2 & H3 & H4 & H5 & H6).
      assert (C : c <> rz).
      { intros C. apply Z. assert (P : p = rz). { assert (Y : p * p = rz). { apply nn_sum_zero with (2 * 2 * (rconj b * b)); [apply nn_real_sq, Rp|apply nn_four|]. change (s = rz). rewrite <- Ec, C. ring. } apply mul_zero in Y as [Y|Y]; exact Y. }
        apply (@mul_eq N 2); [apply two_neq|]. rewrite H3, C, P. unfold rsub. ring. }
      assert (C' : - c <> rz) by (intros Q; apply C; transitivity (- (- c)); [ring|rewrite Q; ring]).
      assert (D : ndiv N (E + - a1) (- c) = ndiv N (rsub a1 E) c) by (unfold rsub; field; auto).
      assert (X : nn (ndiv N (rsub a1 E) c)) by (apply nn_div; auto). pose proof (n_sqrt_sq N _ X) as SQ. pose proof (n_sqrt_nn N _ X) as SN. set (o := n_sqrt N (ndiv N (rsub a1 E) c)) in *.
      assert (O : o <> rz). { intros Q. apply Z. transitivity (c * ndiv N (rsub a1 E) c); [symmetry; apply div_mul, C|]. rewrite <- SQ, Q. ring. }
      assert (DE : E + - a1 <> rz) by (intros Q; apply Z; transitivity (- (E + - a1)); [unfold rsub; ring|rewrite Q; ring]).
      exists o. split; [|auto]. unfold eig2x2. fold p. fold s. cbn [f_sqrt]. rewrite Hs. fold c. cbn [f_opp f_add f_div]. rewrite (eqb_neq (two_neq N)). fold E. cbn [f_add f_div]. rewrite (eqb_neq C'). cbn [f_sqrt]. rewrite D, X. fold o. cbn [f_add f_eqb is_nan f_mul f_div orb].
      rewrite (eqb_neq DE). assert (Y : o + E <> E) by (intros Q; apply O; transitivity (o + E + - E); [ring|rewrite Q; ring]). rewrite (eqb_neq Y). cbn. reflexivity.
    Qed.
    Theorem eig2x2_ok : exists E o n, eig2x2 a0 a1 b = Ok (Fin E, Fin o, Fin n) /\ ground2 a0 a1 b E o n /\ nn o.
    Proof.
      destruct E_facts as (H1 & H2 & H3 & H4 & H5 & H6). destruct (eq_dec N (rsub a1 E) rz) as [Z|Z].
      - destruct (run_zero Z) as (Q & B & _). exists a1, rz, ro. split; [exact Q|]. split; [|apply nn0]. assert (EE : E = a1) by (transitivity (a1 + - rsub a1 E); [unfold rsub; ring|rewrite Z; ring]). split; [unfold norm2; rewrite conj0, conj1; ring|]. split; [rewrite B, conj0; ring|]. split; [ring|]. intros x y. rewrite <- EE at 1. apply E_ground.
      - destruct (run_regular Z) as (o & Q & NO & O & C & SQ). eexists E, o, _. split; [exact Q|]. split; [|exact NO].
        assert (DE : E + - a1 <> rz) by (intros Q'; apply Z; transitivity (- (E + - a1)); [unfold rsub; ring|rewrite Q'; ring]). set (n := ndiv N (b * o) (E + - a1)).
        assert (NE : (E + - a1) * n = b * o) by (apply div_mul, DE). pose proof (n_nn_conj N o NO) as RO.
        assert (RE : rconj (E + - a1) = E + - a1) by (replace (E + - a1) with (- rsub a1 E) by (unfold rsub; ring); rewrite conj_opp, (n_nn_conj N _ H5); reflexivity).
        split; [|split; [|split; [|exact E_ground]]].
        + unfold norm2. rewrite RO, SQ. apply (@mul_eq N ((E + - a1) * (E + - a1))); [intros Q'; apply mul_zero in Q' as [Q'|Q']; auto|].
          transitivity ((E + - a1) * (E + - a1) * ndiv N (rsub a1 E) c + (rconj ((E + - a1) * n)) * ((E + - a1) * n)); [rewrite rconj_mul, RE; ring|]. rewrite NE, rconj_mul, RO.
          transitivity ((E + - a1) * (E + - a1) * ndiv N (rsub a1 E) c + (rconj b * b) * (o * o)); [ring|]. rewrite SQ, <- H6.
          apply (@mul_eq N c); [exact C|]. transitivity ((E + - a1) * (E + - a1) * (c * ndiv N (rsub a1 E) c) + rsub a0 E * rsub a1 E * (c * ndiv N (rsub a1 E) c)); [ring|]. rewrite (@div_mul N (rsub a1 E) c C).
          assert (CE : c = rsub a0 E + rsub a1 E) by (apply (@mul_eq N 2); [apply two_neq|]; transitivity (2 * rsub a0 E + 2 * rsub a1 E); [rewrite H2, H3; unfold rsub, two; ring|ring]). rewrite CE. unfold rsub. ring.
        + apply (@mul_eq N (E + - a1)); [exact DE|]. transitivity ((E + - a1) * a0 * o + rconj b * ((E + - a1) * n)); [ring|]. rewrite NE. transitivity ((E + - a1) * a0 * o + (rconj b * b) * o); [ring|]. rewrite <- H6. unfold rsub. ring.
        + transitivity ((E + - a1) * n + a1 * n); [rewrite NE; ring|ring].
    Qed.
    (** Without coupling. *)
    Lemma eig2x2_diag : b = rz -> eig2x2 a0 a1 b = if n_leb N a1 a0 then Ok (Fin a1, Fin rz, Fin ro) else Ok (Fin a0, Fin ro, Fin rz).
    Proof.
      intros B. destruct E_facts as (H1 & H2 & H3 & H4 & H5 & H6). destruct run_facts as (Rp & Hs & Hc & Ec & Hu & Hw & Eq).
      assert (NN : forall x : N, nn x -> x * x = ro -> x = ro).
      { intros x Hx Q. assert (Y : (x + - ro) * (x + ro) = rz) by (transitivity (x * x + - ro); [ring|rewrite Q; ring]). apply mul_zero in Y as [Y|Y]; [transitivity (x + - ro + ro); [ring|rewrite Y; ring]|]. exfalso. apply (n_one N). apply nn_sum_zero with x; auto using nn1. transitivity (x + ro); [ring|exact Y]. }
      destruct (eq_dec N (rsub a1 E) rz) as [Z|Z].
      - destruct (run_zero Z) as (Q & _ & L). unfold le in L. rewrite L. exact Q.
      - destruct (run_regular Z) as (o & Q & NO & O & C & SQ). rewrite Q. rewrite B in H6. assert (Z0 : rsub a0 E = rz). { apply mul_cancel with (rsub a1 E); [exact Z|]. transitivity (rsub a0 E * rsub a1 E); [ring|]. rewrite H6. ring. }
        assert (EE : E = a0) by (transitivity (a0 + - rsub a0 E); [unfold rsub; ring|rewrite Z0; ring]).
        destruct (n_leb N a1 a0) eqn:L.
        + exfalso. apply Z. apply n_anti; [exact H5|]. rewrite n_le_sub in L. rewrite EE. replace (- rsub a1 a0) with (rsub a0 a1) by (unfold rsub; ring). exact L.
        + rewrite B. rewrite EE. assert (o = ro) as ->. { apply NN; [exact NO|]. rewrite SQ. apply (@mul_eq N c); [exact C|]. rewrite (@div_mul N _ c C). assert (CE : c = rsub a0 E + rsub a1 E) by (apply (@mul_eq N 2); [apply two_neq|]; transitivity (2 * rsub a0 E + 2 * rsub a1 E); [rewrite H2, H3; unfold rsub, two; ring|ring]). rewrite CE, Z0. ring. }
          do 2 f_equal. f_equal. unfold ndiv. ring.
    Qed.
  End Run.
End E.
