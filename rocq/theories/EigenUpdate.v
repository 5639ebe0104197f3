(** The update of two sites for an eigenvector that is not normalized. *)
From Verif Require Import Base Ring Index SpecIndex Dense IndexProofs BTensor Bcast Tensordot SpecTensordot Chain SpecChain ChainProofs ChainInst ModelsBlockProofs Num Eig2 SpecEig2 Eig2Proofs Lanczos SpecLanczos LanczosVec LanczosProofs.
Set Implicit Arguments.

Section L.
  Variable N : numeric.
  Add Ring Rr : (ring_th N).
  Local Open Scope R_scope.
  Notation t := (dense N).
  Variables (L H E : t) (x p p' x' : nat).
  Hypothesis FT : fits L H E x p p' x'.
  Notation sh := [x; p; p'; x'].
  Notation M := (heff L H E).
  Variables (eps : N) (s : t).
  Hypothesis Ss : dsh s = sh.
  Hypothesis HM : hermitian_kernel sh M.
  Notation v := (dv s).
  Variable h : N.
  Hypothesis Rh : rconj h = h.
  Hypothesis Hv : forall i, in_range sh i = true -> apply sh M v i = h * v i.
  Notation w := (sprod sh v v).
  Lemma sprod_scale (a b : N) (u u' : list nat -> N) : sprod sh (fun i => a * u i) (fun i => b * u' i) = rconj a * b * sprod sh u u'.
  Proof. unfold sprod. rewrite <- sumf_mul_l. apply sumf_ext. intros i _. rewrite rconj_mul. ring. Qed.
  Lemma apply_scale (a : N) (u : list nat -> N) i : apply sh M (fun i => a * u i) i = a * apply sh M u i.
  Proof. unfold apply. rewrite <- sumf_mul_l. apply sumf_ext. intros j _. ring. Qed.
  Notation k0 := (h * rsub ro w).
  Lemma eigen_energy : energy sh M v = h * w.
  Proof. unfold energy. rewrite (@sprod_ext N sh v (apply sh M v) v (fun i => h * v i)) by (auto; intros; apply Hv; auto). unfold sprod. rewrite <- sumf_mul_l. apply sumf_ext. intros i _. ring. Qed.
  Lemma w_real : rconj w = w.
  Proof. apply sprod_conj. Qed.
  Lemma k0_real : rconj k0 = k0.
  Proof. rewrite rconj_mul, Rh. f_equal. unfold rsub. rewrite rconj_add, conj_opp, conj1, w_real. reflexivity. Qed.
  Lemma eigen_residual i : in_range sh i = true -> residual sh M v i = k0 * v i.
  Proof. intros Hi. unfold residual. rewrite eigen_energy, Hv by exact Hi. unfold rsub. ring. Qed.
  Lemma eigen_rr : sprod sh (residual sh M v) (residual sh M v) = k0 * k0 * w.
  Proof. rewrite (@sprod_ext N sh _ _ (fun i => k0 * v i) (fun i => k0 * v i)) by (intros; apply eigen_residual; auto). rewrite sprod_scale, k0_real. reflexivity. Qed.
  Notation b := (n_sqrt N (sprod sh (residual sh M v) (residual sh M v))).
  Hypothesis Pe : le N rz eps.
  Hypothesis Ze : eps <> rz.
  Hypothesis Hb : le N eps b.
  Theorem eigen_update : exists Et U k, t_update eps s H L E = Ok (Et, U) /\ dsh Et = [] /\ dsh U = sh /\ k <> rz /\ (forall i, in_range sh i = true -> dv U i = k * v i) /\ dv Et [] <> h.
  Proof.
    destruct (@update_run N L H E x p p' x' FT eps s Ss HM) as (psi & a0 & a1 & e & o & n & _ & (G1 & G2 & G3 & _) & A0 & A1 & VP & Et & U & EU & SE & Ve & SU & VU). unfold le in Hb. rewrite Hb in VP.
    assert (BN : n_leb N rz b = true) by (apply n_sqrt_nn, sprod_nn). assert (BS : b * b = k0 * k0 * w) by (rewrite n_sqrt_sq by apply sprod_nn; apply eigen_rr). assert (BC : rconj b = b) by (apply n_nn_conj, BN).
    assert (BZ : b <> rz). { intros Q. apply Ze. apply le_anti; [|exact Pe]. rewrite <- Q. exact Hb. }
    set (c := ndiv N k0 b). assert (Ec : b * c = k0) by (apply div_mul, BZ).
    assert (VP' : forall i, in_range sh i = true -> psi i = c * v i). { intros i Hi. rewrite VP, eigen_residual by exact Hi. unfold c, ndiv. ring. }
    assert (Cc : rconj c = c). { apply (@mul_eq N b); [exact BZ|]. rewrite Ec. rewrite <- BC at 1. rewrite <- rconj_mul, Ec. apply k0_real. }
    rewrite eigen_energy in A0.
    assert (A1' : a1 = h).
    { rewrite A1. unfold energy. rewrite (@sprod_ext N sh psi (apply sh M psi) (fun i => c * v i) (fun i => (c * h) * v i)).
      - rewrite sprod_scale, Cc. apply (@mul_eq N (b * b)); [intros Q; apply mul_zero in Q as [Q|Q]; exact (BZ Q)|]. transitivity ((b * c) * (b * c) * h * w); [ring|]. rewrite Ec, BS. ring.
      - exact VP'.
      - intros i Hi. transitivity (apply sh M (fun i => c * v i) i); [unfold apply; apply sumf_ext; intros j Hj; apply idxs_In in Hj; rewrite VP' by exact Hj; reflexivity|]. rewrite apply_scale, Hv by exact Hi. ring. }
    rewrite A1' in G3. rewrite A0, BC in G2.
    assert (NN : ~ (o = rz /\ n = rz)). { intros [-> ->]. unfold norm2 in G1. apply (n_one N). rewrite <- G1. ring. }
    exists Et, U, (o + n * c). split; [exact EU|]. split; [exact SE|]. split; [exact SU|]. split; [|split].
    - intros Q. assert (Q1 : o * b + n * k0 = rz) by (rewrite <- Ec; transitivity ((o + n * c) * b); [ring|rewrite Q; ring]).
      assert (Q2 : n * (h * w + - e) = rz). { transitivity ((o * b + n * k0) * ropp ro + (b * o + h * n + - (e * n))); [unfold rsub; ring|]. rewrite Q1, G3. ring. }
      apply mul_zero in Q2 as [Q2|Q2].
      + apply NN. split; [|exact Q2]. rewrite Q2 in Q1. apply (@mul_cancel N b); [exact BZ|]. rewrite <- Q1. ring.
      + assert (Q3 : b * n = rz). { transitivity ((h * w * o + b * n) + - (h * w * o)); [ring|]. rewrite G2. transitivity (ropp (h * w + - e) * o); [ring|]. rewrite Q2. ring. }
        apply mul_cancel in Q3; [|exact BZ]. apply NN. split; [|exact Q3]. rewrite Q3 in Q1. apply (@mul_cancel N b); [exact BZ|]. rewrite <- Q1. ring.
    - intros i Hi. rewrite VU by exact Hi. unfold comb. rewrite VP' by exact Hi. ring.
    - rewrite Ve. intros Q. rewrite Q in G3. assert (Q1 : b * o = rz) by (transitivity ((b * o + h * n) + - (h * n)); [ring|rewrite G3; ring]). apply mul_cancel in Q1; [|exact BZ].
      rewrite Q1 in G2. assert (Q2 : b * n = rz) by (transitivity (h * w * rz + b * n); [ring|rewrite G2; ring]). apply mul_cancel in Q2; [|exact BZ]. apply NN. auto.
  Qed.
End L.
