(** The update of two sites for dense tensors. *)
From Verif Require Import Base Ring Index SpecIndex Dense IndexProofs BTensor Bcast Tensordot SpecTensordot Chain SpecChain ChainProofs ChainInst ModelsBlockProofs Num Eig2 SpecEig2 Eig2Proofs Lanczos SpecLanczos LanczosVec.
Set Implicit Arguments.

Section L.
  Variable N : numeric.
  Add Ring Rr : (ring_th N).
  Notation t := (dense N).
  Notation nn x := (n_leb N rz x = true).
  Tactic Notation "pulln" integer(n) := eapply eq_trans; [do n (apply pull; intro); reflexivity|cbn beta].
  Ltac inn := apply sumf_ext; intros ? _.
  Ltac tred2 := cbv beta iota delta [length free gather seq filter map nth existsb Nat.eqb negb orb app firstn skipn coords slot index_of inv_perm]; cbn [dsh dv d_permute].
  Ltac small := cbn; intros; repeat match goal with H : _ \/ _ |- _ => destruct H end; try contradiction; subst; lia.
  Ltac dist := repeat (constructor; [cbn; intuition congruence|]); constructor.

  Lemma tdot_self (A B : t) d1 d2 : length d1 = length d2 -> NoDup d1 -> NoDup d2 -> (forall k, In k d1 -> k < length (dsh A)) -> (forall k, In k d2 -> k < length (dsh B)) ->
    gather 0 d1 (dsh A) = gather 0 d2 (dsh B) -> 0 < length (dsh A) -> 0 < length (dsh B) -> exists C, t_tdot A B d1 d2 = Ok C /\ deq C (d_tdot A B d1 d2).
  Proof.
    intros. destruct (@dden_tdot N A B A B d1 d2) as (C & E & _ & D); auto; try (split; auto; fail). { rewrite map_id'. auto. } eauto.
  Qed.
  Lemma in_range4 x p p' x' i : in_range [x; p; p'; x'] i = true -> exists a b c d, i = [a; b; c; d] /\ a < x /\ b < p /\ c < p' /\ d < x'.
  Proof.
    destruct i as [|a [|b [|c [|d [|? ?]]]]]; cbn; rewrite ?andb_false_r; try discriminate. rewrite !andb_true_iff, !Nat.ltb_lt. intros (A & B & C & D & _). exists a, b, c, d. auto.
  Qed.
  Variables (L H E : t) (x p p' x' : nat).
  Hypothesis FT : fits L H E x p p' x'.
  Notation sh := [x; p; p'; x'].
  Notation M := (heff L H E).
  Lemma h2s_ok (v : t) : dsh v = sh -> exists C, hamil2site_times_state t_tdot v H L E = Ok C /\ dsh C = sh /\ forall i, in_range sh i = true -> dv C i = apply sh M (dv v) i.
  Proof.
    intros Sv. destruct FT as (o & o' & SL & SH & SE). unfold hamil2site_times_state.
    destruct (@tdot_self L v [0] [0]) as (X & EX & SX & VX); try (rewrite ?SL, ?Sv; solve [small | dist | reflexivity]). rewrite EX. cbn [rbind].
    cbn [d_tdot dsh] in SX. rewrite SL, Sv in SX. change (dsh X = [o; x; p; p'; x']) in SX.
    destruct (@tdot_self X H [0; 2; 3] [0; 4; 5]) as (Y & EY & SY & VY); try (rewrite ?SX, ?SH; solve [small | dist | reflexivity]). rewrite EY. cbn [rbind].
    cbn [d_tdot dsh] in SY. rewrite SX, SH in SY. change (dsh Y = [x; x'; p; p'; o']) in SY.
    destruct (@tdot_self Y E [1; 4] [0; 1]) as (Z & EZ & SZ & VZ); try (rewrite ?SY, ?SE; solve [small | dist | reflexivity]).
    cbn [d_tdot dsh] in SZ. rewrite SY, SE in SZ. change (dsh Z = sh) in SZ. exists Z. split; [exact EZ|]. split; [exact SZ|]. intros i Hi. rewrite VZ by (rewrite SZ; exact Hi).
    apply in_range4 in Hi as (a & b & c & d & -> & Ha & Hb & Hc & Hd).
    cbn [d_tdot dv]. rewrite SY, SE. tred2.
    transitivity (sum j3 < x', sum q' < o', sum q < o, sum j1 < p, sum j2 < p', sum j0 < x,
      rmul (rmul (rmul (dv L [j0; q; a]) (dv H [q; b; c; q'; j1; j2])) (dv E [j3; q'; d])) (dv v [j0; j1; j2; j3])).
    - rewrite sum_idxs_cons. apply sumf_ext; intros j3 H3. rewrite sum_idxs1. apply sumf_ext; intros q' Hq'. tred2. change (In j3 (seq 0 x')) in H3. change (In q' (seq 0 o')) in Hq'. rewrite in_seq in H3, Hq'.
      rewrite VY by (rewrite SY; cbn [in_range]; rewrite !andb_true_iff, !Nat.ltb_lt; repeat split; lia).
      cbn [d_tdot dv]. rewrite SX, SH. tred2. rewrite sum_idxs_cons, <- sumf_mul_r. apply sumf_ext; intros q Hq. rewrite sum_idxs_cons, <- sumf_mul_r. apply sumf_ext; intros j1 H1. rewrite sum_idxs1, <- sumf_mul_r. apply sumf_ext; intros j2 H2. tred2.
      change (In q (seq 0 o)) in Hq. change (In j1 (seq 0 p)) in H1. change (In j2 (seq 0 p')) in H2. rewrite in_seq in Hq, H1, H2.
      rewrite VX by (rewrite SX; cbn [in_range]; rewrite !andb_true_iff, !Nat.ltb_lt; repeat split; lia).
      cbn [d_tdot dv]. rewrite SL, Sv. tred2. rewrite sum_idxs1, <- !sumf_mul_r. inn. tred2. ring.
    - symmetry. unfold apply, heff. rewrite SL, SE. cbn [nth].
      transitivity (sum j0 < x, sum j1 < p, sum j2 < p', sum j3 < x', sum q < o, sum q' < o',
        rmul (rmul (rmul (dv L [j0; q; a]) (dv H [q; b; c; q'; j1; j2])) (dv E [j3; q'; d])) (dv v [j0; j1; j2; j3])).
      + rewrite sum_idxs_cons. inn. rewrite sum_idxs_cons. inn. rewrite sum_idxs_cons. inn. rewrite sum_idxs1. inn. rewrite <- sumf_mul_r. inn. rewrite <- sumf_mul_r. inn. reflexivity.
      + pulln 3. inn. pulln 4. inn. pulln 3. inn. pulln 1. inn. pulln 1. inn. reflexivity.
  Qed.

  Lemma tdot_full (a b : t) : dsh a = sh -> dsh b = sh -> exists s, t_tdot a b [0; 1; 2; 3] [0; 1; 2; 3] = Ok s /\ dsh s = [] /\ dv s [] = sumf N (fun i => rmul (dv a i) (dv b i)) (idxs sh).
  Proof.
    intros Sa Sb. destruct (@tdot_self a b [0; 1; 2; 3] [0; 1; 2; 3]) as (s & Es & Ss & Vs); try (rewrite ?Sa, ?Sb; solve [small | dist | reflexivity]).
    cbn [d_tdot dsh] in Ss. rewrite Sa, Sb in Ss. change (dsh s = []) in Ss. exists s. split; [exact Es|]. split; [exact Ss|]. rewrite Vs by (rewrite Ss; reflexivity).
    cbn [d_tdot dv]. rewrite Sa, Sb. change (gather 0 [0; 1; 2; 3] sh) with sh. apply sumf_ext. intros c Hc. apply idxs_In, in_range4 in Hc as (i0 & i1 & i2 & i3 & -> & _). tred2. reflexivity.
  Qed.
  Lemma tdot_sprod (a b : t) : dsh a = sh -> dsh b = sh -> exists s, t_tdot a (t_conj b) [0; 1; 2; 3] [0; 1; 2; 3] = Ok s /\ dsh s = [] /\ dv s [] = sprod sh (dv b) (dv a).
  Proof. intros Sa Sb. destruct (@tdot_full a (t_conj b) Sa Sb) as (s & Es & Ss & Vs). exists s. split; [exact Es|]. split; [exact Ss|]. rewrite Vs. apply sumf_ext. intros c _. cbn. ring. Qed.
  Lemma tdot_sprod' (a b : t) : dsh a = sh -> dsh b = sh -> exists s, t_tdot (t_conj a) b [0; 1; 2; 3] [0; 1; 2; 3] = Ok s /\ dsh s = [] /\ dv s [] = sprod sh (dv a) (dv b).
  Proof. intros Sa Sb. apply (@tdot_full (t_conj a) b Sa Sb). Qed.

  Lemma bc_rev s : bc_shape s s = Some s.
  Proof. induction s as [|n s IH]; [reflexivity|]. cbn. rewrite Nat.eqb_refl. cbn [orb]. rewrite IH. destruct (n =? 1); reflexivity. Qed.
  Lemma zip_same ip f (a b : t) : dsh a = sh -> dsh b = sh -> exists C, t_zip ip f a b = Ok C /\ dsh C = sh /\ forall i, in_range sh i = true -> dv C i = f (dv a i) (dv b i).
  Proof.
    intros Sa Sb. unfold t_zip. rewrite Sa, Sb, bc_rev, rev_involutive. assert (Q : leqb sh sh = true) by (apply leqb_eq; reflexivity). rewrite Q, andb_false_r. eexists. split; [reflexivity|]. split; [reflexivity|]. intros i Hi. cbn [dv]. rewrite !bproj_self by exact Hi. reflexivity.
  Qed.
  Lemma zip_scalar ip f (a s : t) : dsh a = sh -> dsh s = [] -> exists C, t_zip ip f a s = Ok C /\ dsh C = sh /\ forall i, in_range sh i = true -> dv C i = f (dv a i) (dv s []).
  Proof.
    intros Sa Ss. unfold t_zip. rewrite Sa, Ss. change (bc_shape (rev sh) (rev [])) with (Some (rev sh)). cbv iota. rewrite rev_involutive. assert (Q : leqb sh sh = true) by (apply leqb_eq; reflexivity). rewrite Q, andb_false_r. eexists. split; [reflexivity|]. split; [reflexivity|]. intros i Hi. cbn [dv]. change (bproj [] i) with (@nil nat). rewrite (bproj_self _ _ Hi). reflexivity.
  Qed.
  Lemma scalar_zip f (a s : t) : dsh a = sh -> dsh s = [] -> exists C, t_zip false f s a = Ok C /\ dsh C = sh /\ forall i, in_range sh i = true -> dv C i = f (dv s []) (dv a i).
  Proof.
    intros Sa Ss. unfold t_zip. rewrite Sa, Ss. change (bc_shape (rev []) (rev sh)) with (Some (rev sh)). cbv iota. cbn [andb]. rewrite rev_involutive. eexists. split; [reflexivity|]. split; [reflexivity|]. intros i Hi. cbn [dv]. change (bproj [] i) with (@nil nat). rewrite (bproj_self _ _ Hi). reflexivity.
  Qed.

  (** Square roots. *)
  Lemma root_unique (a b : N) : nn a -> nn b -> rmul a a = rmul b b -> a = b.
  Proof.
    intros Ha Hb Q. assert (Z : rmul (radd a (ropp b)) (radd a b) = rz) by (transitivity (radd (rmul a a) (ropp (rmul b b))); [ring|rewrite Q; ring]). apply mul_zero in Z as [Z|Z].
    - transitivity (radd (radd a (ropp b)) b); [ring|rewrite Z; ring].
    - rewrite (@nn_sum_zero N a b Ha Hb Z). symmetry. apply (@nn_sum_zero N b a Hb Ha). transitivity (radd a b); [ring|exact Z].
  Qed.
  Lemma nabs_nn (a : N) : nn a -> nabs a = a.
  Proof. intros Ha. apply root_unique; [apply n_sqrt_nn, n_nn_sq|exact Ha|]. unfold nabs. rewrite n_sqrt_sq by apply n_nn_sq. rewrite (n_nn_conj N a Ha). reflexivity. Qed.

  Variable eps : N.
  Variable s : t.
  Hypothesis Ss : dsh s = sh.
  Notation v := (dv s).
  Notation r := (residual sh M v).
  Notation b := (n_sqrt N (sprod sh r r)).
  Lemma lanczos_ok : exists psi a0 a1 B, t_lanczos eps s H L E = Ok (psi, a0, a1, B) /\ dsh psi = sh /\ dsh a0 = [] /\ dsh a1 = [] /\ dsh B = [] /\
    dv a0 [] = energy sh M v /\ dv B [] = b /\ dv a1 [] = energy sh M (dv psi) /\ forall i, in_range sh i = true -> dv psi i = if n_leb N eps b then ndiv N (r i) b else r i.
  Proof.
    unfold t_lanczos, one_step_lanczos. destruct (h2s_ok _ Ss) as (P & EP & SP & VP). rewrite EP. cbn [rbind].
    destruct (tdot_sprod _ _ SP Ss) as (a0 & E0 & S0 & V0). rewrite E0. cbn [rbind].
    assert (A0 : dv a0 [] = energy sh M v) by (rewrite V0; apply sprod_ext; auto).
    destruct (zip_scalar false rmul _ _ Ss S0) as (sa & Es & Ssa & Vs). rewrite Es. cbn [rbind].
    destruct (zip_same true rsub _ _ SP Ssa) as (Q & EQ & SQ & VQ). rewrite EQ. cbn [rbind].
    assert (QR : forall i, in_range sh i = true -> dv Q i = r i) by (intros i Hi; rewrite VQ, VP, Vs, A0 by auto; unfold residual; f_equal; ring).
    destruct (tdot_sprod _ _ SQ SQ) as (bb & Eb & Sb & Vb). rewrite Eb. cbn [rbind].
    assert (BB : dv bb [] = sprod sh r r) by (rewrite Vb; apply sprod_ext; auto).
    assert (BN : nn b) by (apply n_sqrt_nn, sprod_nn).
    unfold t_large, t_item. cbn [d_map dsh dv]. rewrite Sb. cbn [prod_list fold_right Nat.eqb map rbind]. rewrite BB, (nabs_nn _ BN). change (1 =? 1) with true. cbn [rbind].
    assert (K : exists psi, (if n_leb N eps b then t_zip true (ndiv N) Q (d_map (n_sqrt N) bb) else Ok Q) = Ok psi /\ dsh psi = sh /\ forall i, in_range sh i = true -> dv psi i = if n_leb N eps b then ndiv N (r i) b else r i).
    { destruct (n_leb N eps b); [|exists Q; auto]. destruct (@zip_scalar true (ndiv N) Q (d_map (n_sqrt N) bb) SQ Sb) as (C & EC & SC & VC). exists C. split; [exact EC|]. split; [exact SC|]. intros i Hi. rewrite VC by auto. cbn [d_map dv]. rewrite BB, QR by auto. reflexivity. }
    destruct K as (psi & EK & SK & VK). rewrite EK. cbn [rbind].
    destruct (h2s_ok _ SK) as (hp & Eh & Sh & Vh). rewrite Eh. cbn [rbind].
    destruct (tdot_sprod' _ _ SK Sh) as (a1 & E1 & S1 & V1). rewrite E1. cbn [rbind].
    exists psi, a0, a1, (d_map (n_sqrt N) bb). split; [reflexivity|]. split; [exact SK|]. split; [exact S0|]. split; [exact S1|]. split; [exact Sb|]. split; [exact A0|]. split; [cbn; rewrite BB; reflexivity|]. split; [|exact VK].
    rewrite V1. apply sprod_ext; auto.
  Qed.
  Hypothesis HM : hermitian_kernel sh M.
  Lemma update_run : exists psi a0 a1 e o n, eig2x2 a0 a1 b = Ok (Fin e, Fin o, Fin n) /\ ground2 a0 a1 b e o n /\ a0 = energy sh M v /\ a1 = energy sh M psi /\
    (forall i, in_range sh i = true -> psi i = if n_leb N eps b then ndiv N (r i) b else r i) /\
    exists Et U, t_update eps s H L E = Ok (Et, U) /\ dsh Et = [] /\ dv Et [] = e /\ dsh U = sh /\ forall i, in_range sh i = true -> dv U i = comb o n v psi i.
  Proof.
    destruct lanczos_ok as (psi & a0 & a1 & B & EL & Sp & S0 & S1 & SB & V0 & VB & V1 & VP).
    destruct (@eig2x2_ok N (dv a0 []) (dv a1 []) b) as (e & o & n & EE & GR & _). { rewrite V0. apply energy_real, HM. } { rewrite V1. apply energy_real, HM. }
    exists (dv psi), (dv a0 []), (dv a1 []), e, o, n. split; [exact EE|]. split; [exact GR|]. split; [exact V0|]. split; [exact V1|]. split; [exact VP|].
    unfold t_update, two_sites_update. fold (t_lanczos eps). rewrite EL. cbn [rbind]. unfold t_eig, t_item. rewrite S0, S1, SB. cbn [prod_list fold_right map]. change (1 =? 1) with true. cbn [rbind]. rewrite VB, EE. cbn [rbind].
    destruct (@scalar_zip rmul s (mkD [] (fun _ => o)) Ss eq_refl) as (os & E1 & T1 & W1). rewrite E1. cbn [rbind].
    destruct (@scalar_zip rmul psi (mkD [] (fun _ => n)) Sp eq_refl) as (np & E2 & T2 & W2). rewrite E2. cbn [rbind].
    destruct (zip_same false radd _ _ T1 T2) as (U & E3 & T3 & W3). rewrite E3. cbn [rbind].
    eexists _, U. split; [reflexivity|]. split; [reflexivity|]. split; [reflexivity|]. split; [exact T3|]. intros i Hi. rewrite W3, W1, W2 by auto. reflexivity.
  Qed.

  Hypothesis Nv : sprod sh v v = ro.
  Hypothesis Pe : nn eps.
  Hypothesis Ze : eps <> rz.
  Theorem update_ok : le N (rmul eps eps) (sprod sh r r) ->
    exists Et U, t_update eps s H L E = Ok (Et, U) /\ dsh Et = [] /\ dsh U = sh /\ krylov_ground sh M v (dv Et []) (dv U) /\ le N (dv Et []) (energy sh M v).
  Proof.
    intros Hr. destruct update_run as (psi & a0 & a1 & e & o & n & _ & GR & -> & -> & VP & Et & U & EU & SE & Ve & SU & VU).
    assert (BN : nn b) by (apply n_sqrt_nn, sprod_nn). assert (BS : rmul b b = sprod sh r r) by (apply n_sqrt_sq, sprod_nn).
    assert (ZB : radd b eps <> rz). { intros Q. apply Ze. apply nn_sum_zero with b; auto. transitivity (radd b eps); [ring|exact Q]. }
    assert (LE : n_leb N eps b = true). { apply le_nn. apply nn_factor with (radd b eps); [apply n_nn_add; auto|exact ZB|]. apply le_nn in Hr. rewrite <- BS in Hr. replace (rmul (radd b eps) (rsub b eps)) with (rsub (rmul b b) (rmul eps eps)) by (unfold rsub; ring). exact Hr. }
    assert (NB : b <> rz). { intros Q. rewrite Q in LE. apply Ze. apply n_anti; [exact Pe|]. apply le_nn in LE. replace (ropp eps) with (rsub rz eps) by (unfold rsub; ring). exact LE. }
    exists Et, U. split; [exact EU|]. split; [exact SE|]. split; [exact SU|]. rewrite Ve.
    assert (K : krylov_ground sh M v e (dv U)).
    { eapply krylov_ok with (b := b) (u := psi); eauto. - apply n_nn_conj, BN. - intros i Hi. rewrite VP, LE by auto. reflexivity. }
    split; [exact K|]. eapply krylov_below; eauto.
  Qed.
  Theorem update_eigen lam : (forall i, in_range sh i = true -> apply sh M v i = rmul lam (v i)) ->
    exists Et U, t_update eps s H L E = Ok (Et, U) /\ dsh Et = [] /\ dsh U = sh /\
      if n_leb N rz lam then dv Et [] = rz /\ forall i, in_range sh i = true -> dv U i = rz
      else dv Et [] = lam /\ forall i, in_range sh i = true -> dv U i = v i.
  Proof.
    intros HE. destruct update_run as (psi & a0 & a1 & e & o & n & EE & GR & -> & -> & VP & Et & U & EU & SE & Ve & SU & VU).
    assert (EL : energy sh M v = lam). { unfold energy. rewrite (@sprod_ext N sh v (apply sh M v) v (comb lam rz v v)); [|auto|intros i Hi; rewrite HE by auto; unfold comb; ring]. rewrite sprod_comb_r, Nv. ring. }
    assert (RZ : forall i, in_range sh i = true -> r i = rz) by (intros i Hi; unfold residual; rewrite EL, HE by auto; unfold rsub; ring).
    assert (RR : sprod sh r r = rz) by (apply sumf_zero; intros i Hi; apply idxs_In in Hi; rewrite RZ by auto; ring).
    assert (BZ : b = rz). { assert (Q : rmul b b = rz) by (rewrite n_sqrt_sq; [exact RR|apply sprod_nn]). apply mul_zero in Q as [Q|Q]; exact Q. }
    assert (LE : n_leb N eps b = false). { destruct (n_leb N eps b) eqn:Q; [|reflexivity]. exfalso. rewrite BZ in Q. apply Ze. apply n_anti; [exact Pe|]. apply le_nn in Q. replace (ropp eps) with (rsub rz eps) by (unfold rsub; ring). exact Q. }
    assert (PZ : forall i, in_range sh i = true -> psi i = rz) by (intros i Hi; rewrite VP, LE by auto; auto).
    assert (A1 : energy sh M psi = rz). { apply sumf_zero. intros i Hi. apply idxs_In in Hi. rewrite PZ by auto. rewrite conj0. ring. }
    assert (RL : rconj lam = lam) by (rewrite <- EL; apply energy_real, HM).
    rewrite A1, EL in EE. rewrite eig2x2_diag in EE by (auto using conj0). exists Et, U. split; [exact EU|]. split; [exact SE|]. split; [exact SU|]. rewrite Ve.
    destruct (n_leb N rz lam); injection EE as <- <- <-; (split; [reflexivity|]); intros i Hi; rewrite VU by auto; unfold comb; rewrite PZ by auto; ring.
  Qed.
End L.
