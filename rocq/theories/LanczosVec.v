(** Scalar products, and the two-vector problem of a Hermitian kernel. *)
From Verif Require Import Base Ring SpecIndex Dense IndexProofs Num SpecEig2 Eig2Proofs SpecLanczos.
Set Implicit Arguments.

Section V.
  Variable N : numeric.
  Add Ring Rr : (ring_th N).
  Local Open Scope R_scope.
  Notation nn x := (n_leb N rz x = true).
  Notation vec := (list nat -> N).
  Variables (sh : list nat) (M : list nat -> list nat -> N).
  Notation inr i := (in_range sh i = true).
  Notation sprod := (sprod sh). Notation apply := (apply sh M). Notation energy := (energy sh M).
  Implicit Types v w u : vec.

  Lemma sprod_ext v w v' w' : (forall i, inr i -> v i = v' i) -> (forall i, inr i -> w i = w' i) -> sprod v w = sprod v' w'.
  Proof. intros H H'. apply sumf_ext. intros i Hi. apply idxs_In in Hi. rewrite H, H'; auto. Qed.
  Lemma apply_ext v v' i : (forall i, inr i -> v i = v' i) -> apply v i = apply v' i.
  Proof. intros H. apply sumf_ext. intros j Hj. apply idxs_In in Hj. rewrite H; auto. Qed.
  Lemma energy_ext v v' : (forall i, inr i -> v i = v' i) -> energy v = energy v'.
  Proof. intros H. apply sprod_ext; [exact H|]. intros. apply apply_ext, H. Qed.
  Lemma sprod_conj v w : rconj (sprod v w) = sprod w v.
  Proof. unfold SpecLanczos.sprod. rewrite <- sumf_conj. apply sumf_ext. intros i _. rewrite rconj_mul, rconj_conj. ring. Qed.
  Lemma sprod_comb_r v x y w u : sprod v (comb x y w u) = x * sprod v w + y * sprod v u.
  Proof. unfold SpecLanczos.sprod. rewrite <- !sumf_mul_l, <- sumf_add. apply sumf_ext. intros i _. unfold comb. ring. Qed.
  Lemma sprod_comb_l v x y w u : sprod (comb x y w u) v = rconj x * sprod w v + rconj y * sprod u v.
  Proof. rewrite <- sprod_conj, sprod_comb_r, rconj_add, !rconj_mul, !sprod_conj. reflexivity. Qed.
  Lemma apply_comb x y v w i : apply (comb x y v w) i = comb x y (apply v) (apply w) i.
  Proof. unfold SpecLanczos.apply, comb. rewrite <- !sumf_mul_l, <- sumf_add. apply sumf_ext. intros j _. ring. Qed.
  Lemma nn_sum A (f : A -> N) l : (forall a, In a l -> nn (f a)) -> nn (sumf N f l).
  Proof. induction l as [|a l IH]; intros H; [apply nn0|]. rewrite sumf_cons. apply n_nn_add; [apply H; left; auto|apply IH; intros; apply H; right; auto]. Qed.
  Lemma sprod_nn v : nn (sprod v v). Proof. apply nn_sum. intros i _. apply n_nn_sq. Qed.

  Hypothesis HM : hermitian_kernel sh M.
  Lemma apply_swap v w : sprod v (apply w) = rconj (sprod w (apply v)).
  Proof.
    rewrite sprod_conj. unfold SpecLanczos.sprod, SpecLanczos.apply. transitivity (sumf N (fun i => sumf N (fun j => rconj (v i) * (M i j * w j)) (idxs sh)) (idxs sh)).
    - apply sumf_ext. intros i _. rewrite <- sumf_mul_l. reflexivity.
    - rewrite sumf_swap. apply sumf_ext. intros j Hj. rewrite <- sumf_conj, <- sumf_mul_r. apply sumf_ext. intros i Hi. apply idxs_In in Hi, Hj. rewrite rconj_mul, HM by auto. ring.
  Qed.
  Lemma energy_real v : rconj (energy v) = energy v. Proof. symmetry. apply apply_swap. Qed.
  Lemma energy_comb x y v w : energy (comb x y v w) = form2 (energy v) (energy w) (sprod w (apply v)) x y.
  Proof.
    unfold SpecLanczos.energy. rewrite (@sprod_ext _ _ (comb x y v w) (comb x y (apply v) (apply w))); [|auto|intros; apply apply_comb].
    rewrite sprod_comb_l, !sprod_comb_r. unfold form2. rewrite (apply_swap v w). ring.
  Qed.
  Lemma norm_comb x y v w : sprod v v = ro -> sprod w w = ro -> sprod v w = rz -> sprod (comb x y v w) (comb x y v w) = norm2 x y.
  Proof. intros Hv Hw Hvw. rewrite sprod_comb_l, !sprod_comb_r, Hv, Hw, Hvw, <- (sprod_conj v w), Hvw, conj0. unfold norm2. ring. Qed.

  Section Step.
    Variable v : vec.
    Hypothesis Nv : sprod v v = ro.
    Notation a0 := (energy v).
    Notation r := (residual sh M v).
    Lemma residual_comb i : r i = comb ro (- energy v) (apply v) v i. Proof. unfold residual, comb, rsub. ring. Qed.
    Lemma residual_orth : sprod v r = rz.
    Proof. rewrite (@sprod_ext v r v (comb ro (- energy v) (apply v) v)) by (auto using residual_comb). rewrite sprod_comb_r, Nv. unfold SpecLanczos.energy. ring. Qed.
    Variables (b : N) (u : vec).
    Hypothesis Rb : rconj b = b.
    Hypothesis Eb : b * b = sprod r r.
    Hypothesis Nb : b <> rz.
    Hypothesis Hu : forall i, inr i -> u i = ndiv N (r i) b.
    Lemma u_r i : inr i -> r i = comb b rz u u i. Proof. intros H. unfold comb. rewrite Hu by auto. rewrite (@div_mul N _ b Nb). ring. Qed.
    Lemma u_norm : sprod u u = ro.
    Proof. apply (@mul_eq N (b * b)); [intros Q; apply mul_zero in Q as [Q|Q]; auto|]. transitivity (b * b); [|ring]. rewrite Eb at 2.
      rewrite (@sprod_ext r r (comb b rz u u) (comb b rz u u)) by (auto using u_r). rewrite sprod_comb_l, !sprod_comb_r, Rb, conj0. ring. Qed.
    Lemma u_orth : sprod v u = rz.
    Proof. apply (@mul_eq N b); [exact Nb|]. transitivity (sprod v (comb b rz u u)); [rewrite sprod_comb_r; ring|]. rewrite (@sprod_ext v (comb b rz u u) v r) by (auto; intros; symmetry; apply u_r; auto). rewrite residual_orth. ring. Qed.
    Lemma apply_v i : inr i -> apply v i = comb a0 b v u i.
    Proof. intros H. pose proof (u_r _ H) as Q. unfold residual in Q. unfold comb in *. transitivity (rsub (apply v i) (a0 * v i) + a0 * v i); [unfold rsub; ring|rewrite Q; ring]. Qed.
    Lemma u_couple : sprod u (apply v) = b.
    Proof. rewrite (@sprod_ext u (apply v) u (comb a0 b v u)) by (auto using apply_v). rewrite sprod_comb_r, u_norm, <- (sprod_conj v u), u_orth, conj0. ring. Qed.
    Lemma krylov_ok E o n psi : ground2 a0 (energy u) b E o n -> (forall i, inr i -> psi i = comb o n v u i) -> krylov_ground sh M v E psi.
    Proof.
      intros (G1 & G2 & G3 & G4) Hp.
      assert (FE : forall x y, energy (comb x y v u) = form2 a0 (energy u) b x y) by (intros; rewrite energy_comb, u_couple; reflexivity).
      assert (FN : forall x y, sprod (comb x y v u) (comb x y v u) = norm2 x y) by (intros; apply norm_comb; auto using u_norm, u_orth).
      split; [|split; [|split]].
      - rewrite (@sprod_ext psi psi (comb o n v u) (comb o n v u)) by auto. rewrite FN. exact G1.
      - rewrite (@energy_ext psi (comb o n v u)) by auto. rewrite FE. unfold form2. transitivity (rconj o * (a0 * o + rconj b * n) + rconj n * (b * o + energy u * n)); [ring|]. rewrite G2, G3. transitivity (E * norm2 o n); [unfold norm2; ring|rewrite G1; ring].
      - exists (rsub o (a0 * ndiv N n b)), (ndiv N n b). intros i Hi. rewrite Hp by auto. unfold comb. rewrite (apply_v _ Hi). unfold comb. transitivity (o * v i + (b * ndiv N n b) * u i); [rewrite (@div_mul N n b Nb); reflexivity|unfold rsub; ring].
      - intros x y. assert (Q : forall i, inr i -> comb x y v (apply v) i = comb (x + y * a0) (y * b) v u i) by (intros i Hi; unfold comb at 1; rewrite (apply_v _ Hi); unfold comb; ring).
        rewrite (@sprod_ext _ _ _ _ Q Q), (energy_ext _ _ Q), FE, FN. apply G4.
    Qed.
  End Step.
  (** The ground state of the two directions is not above the first one. *)
  Lemma krylov_below v E psi : sprod v v = ro -> krylov_ground sh M v E psi -> le N E (energy v).
  Proof.
    intros Nv (_ & _ & _ & K). specialize (K ro rz). assert (Q : forall i, inr i -> comb ro rz v (apply v) i = v i) by (intros; unfold comb; ring).
    rewrite (@sprod_ext _ _ _ _ Q Q), (energy_ext _ _ Q), Nv, rmul_1_r in K. exact K.
  Qed.
End V.
