(** Two spins with the product of the first Pauli matrices, one singular value kept: values for the refutations of C75 and C76. *)
From Verif Require Import Base Ring Index SpecIndex Dense IndexProofs BTensor BTensorArith Bcast Tensordot SpecTensordot Chain SpecChain ChainProofs ChainThms ChainInst ChainEnd
  SpecMove SpecSvd SvdDense SvdEx MoveOc MoveProofs MoveInst MoveEx Truncate SpecTruncate TruncateProofs BSvd BTrunc Num Lanczos SpecLanczos LanczosVec LanczosProofs LanczosEx SiteUpdate SpecSiteUpdate ChainNorm ChainEnergy SiteUpdateProofs SiteUpdateThms
  SiteUpdateTrunc SiteUpdateEx.
Set Implicit Arguments.

Section Bell.
  Variable N : numeric.
  Add Ring Rr : (ring_th N).
  Notation t := (dense N).
  Notation nn x := (n_leb N rz x = true).
  Ltac red_ex := cbn; cbv beta iota delta [Nat.eqb andb negb].
  Notation sh := [1; 2; 2; 1].
  Notation l := (ex_env N).
  Notation sx := (ex_sx N).
  (** A decomposition that is right for diagonal matrices of two rows and columns whose entries have the same size. *)
  Definition sqa (a : N) : N := rmul (rconj a) a.
  Definition ex_bell (M : t) : t * t * t :=
    if leqb (dsh M) [2; 2] && reqb (dv M [0; 1]) rz && reqb (dv M [1; 0]) rz && reqb (sqa (dv M [0; 0])) (sqa (dv M [1; 1])) && negb (reqb (dv M [0; 0]) rz) then
      (mkD [2; 2] (fun i => if nth 0 i 0 =? nth 1 i 0 then ndiv N (dv M [nth 0 i 0; nth 0 i 0]) (n_sqrt N (sqa (dv M [0; 0]))) else rz), mkD [2] (fun _ => n_sqrt N (sqa (dv M [0; 0]))), d_id N 2)
    else one_sided M.
  Lemma two_case i : i < 2 -> i = 0 \/ i = 1. Proof. lia. Qed.
  Lemma root_nz (a : N) : a <> rz -> n_sqrt N (sqa a) <> rz.
  Proof. intros H Q. apply H, sq_zero. pose proof (n_sqrt_sq N (sqa a) (n_nn_sq N a)) as E. rewrite Q, rmul_0_r in E. symmetry. exact E. Qed.
  Lemma root_nn (a : N) : nn (n_sqrt N (sqa a)).
  Proof. apply n_sqrt_nn, n_nn_sq. Qed.
  Lemma bell_cond (M : t) : leqb (dsh M) [2; 2] && reqb (dv M [0; 1]) rz && reqb (dv M [1; 0]) rz && reqb (sqa (dv M [0; 0])) (sqa (dv M [1; 1])) && negb (reqb (dv M [0; 0]) rz) = true <->
    dsh M = [2; 2] /\ dv M [0; 1] = rz /\ dv M [1; 0] = rz /\ sqa (dv M [0; 0]) = sqa (dv M [1; 1]) /\ dv M [0; 0] <> rz.
  Proof.
    rewrite !andb_true_iff, negb_true_iff. split.
    - intros ((((C1 & C2) & C3) & C4) & C5). apply leqb_eq in C1. apply reqb_spec in C2, C3, C4. repeat split; auto. intros Q. rewrite (proj2 (reqb_spec N _ _) Q) in C5. discriminate.
    - intros (C1 & C2 & C3 & C4 & C5). rewrite C1. repeat split; try (apply reqb_spec; assumption). destruct (reqb (dv M [0; 0]) rz) eqn:Q; [apply reqb_spec in Q; contradiction|reflexivity].
  Qed.
  Lemma bell_thin M : (exists m n, dsh M = [m; n]) -> thin M (ex_bell M) /\ real_entries (snd (fst (ex_bell M))).
  Proof.
    intros HM. unfold ex_bell. destruct (_ && _) eqn:C.
    - apply bell_cond in C as (C1 & C2 & C3 & C4 & C5). pose proof (root_nz C5) as RZ. split.
      + intros m n E. rewrite C1 in E. injection E as <- <-. split; [reflexivity|]. split; [reflexivity|]. split; [reflexivity|].
        intros i j Hi Hj. change (Nat.min 2 2) with 2. apply two_case in Hi, Hj. set (r := n_sqrt N (sqa (dv M [0; 0]))) in *.
        assert (DM : forall x : N, rmul (ndiv N x r) r = x) by (intros x; transitivity (rmul r (ndiv N x r)); [ring|apply div_mul; exact RZ]).
        destruct Hi as [-> | ->], Hj as [-> | ->]; red_ex; rewrite ?C2, ?C3, ?DM, ?conj0, ?conj1; ring.
      + intros i Hi. cbn [fst snd dsh dv]. apply n_nn_conj, root_nn.
    - split; [apply one_sided_thin; exact HM|]. unfold one_sided. destruct (_ <=? _); intros i _; apply conj1.
  Qed.
  Lemma bell_val M : (exists m n, dsh M = [m; n]) -> descending (snd (fst (ex_bell M))).
  Proof.
    intros _. unfold ex_bell. destruct (_ && _); cbn [fst snd].
    - split; intros c; [intros _; apply root_nn|]. intros c' _ _. cbn [dv]. apply le_refl.
    - unfold one_sided. destruct (_ <=? _); split; intros; cbn; first [apply nn1 | apply le_refl].
  Qed.
  Lemma bell_iso M : dsh M = [2; 2] -> dv M [0; 1] = rz -> dv M [1; 0] = rz -> sqa (dv M [0; 0]) = sqa (dv M [1; 1]) -> dv M [0; 0] <> rz -> isometries M (ex_bell M).
  Proof.
    intros C1 C2 C3 C4 C5. unfold ex_bell. rewrite (proj2 (bell_cond M)) by auto. intros m n E. rewrite C1 in E. injection E as <- <-. change (Nat.min 2 2) with 2. pose proof (root_nz C5) as RZ. pose proof (n_nn_conj N _ (root_nn (dv M [0; 0]))) as RC. pose proof (n_sqrt_sq N _ (n_nn_sq N (dv M [0; 0]))) as RS. fold (sqa (dv M [0; 0])) in RS.
    set (r := n_sqrt N (sqa (dv M [0; 0]))) in *.
    assert (Q : forall a : N, sqa a = sqa (dv M [0; 0]) -> rmul (rconj (ndiv N a r)) (ndiv N a r) = ro).
    { intros a Ha. apply (@mul_eq N (rmul r r)); [intros W; apply mul_zero in W as [W|W]; contradiction|]. rewrite rmul_1_r. transitivity (rmul (rconj (rmul r (ndiv N a r))) (rmul r (ndiv N a r))); [rewrite rconj_mul, RC; ring|]. rewrite div_mul by exact RZ. rewrite RS, <- Ha. reflexivity. }
    split; intros c c' Hc Hc'; apply two_case in Hc, Hc'; destruct Hc as [-> | ->], Hc' as [-> | ->]; red_ex; rewrite ?conj0, ?conj1; try ring; rewrite Q by (reflexivity || (symmetry; exact C4)); ring.
  Qed.

  (** * The operator *)
  Definition MXX (i j : list nat) : N := if negb (nth 1 i 0 =? nth 1 j 0) && negb (nth 2 i 0 =? nth 2 j 0) then ro else rz.
  Lemma bell_hamil : exists He, two_sites_hamil t_tdot t_perm sx sx = Ok He /\ fits l He l 1 2 2 1 /\ forall i j, in_range sh i = true -> in_range sh j = true -> heff l He l i j = MXX i j.
  Proof.
    destruct (@hamil_ok N sx sx 1 2 1 2 1 eq_refl eq_refl) as (He & E & S & V). exists He. split; [exact E|]. split; [exists 1, 1; auto|]. intros i j Hi Hj.
    apply in_range4 in Hi as (i0 & i1 & i2 & i3 & -> & H0 & H1 & H2 & H3). apply in_range4 in Hj as (j0 & j1 & j2 & j3 & -> & G0 & G1 & G2 & G3).
    unfold heff. cbn [ex_env dsh dv nth seq]. rewrite !sumf_cons, !sumf_nil, V by (rewrite S; cbn [in_range]; rewrite !andb_true_iff, !Nat.ltb_lt; repeat split; lia).
    unfold MXX. cbn. destruct (i1 =? j1), (i2 =? j2); red_ex; ring.
  Qed.
  Lemma bell_local i j : in_range sh i = true -> in_range sh j = true -> local_matrix [] [] sx sx [] [] l l i j = MXX i j.
  Proof.
    intros Hi Hj. destruct bell_hamil as (He & E & F & V). rewrite <- V by assumption. symmetry.
    apply (@heff_local N [] [] [] [] sx sx l l 1 1 1 1 1 2 2 1 1 1 1); reflexivity || assumption.
  Qed.
  Lemma bell_herm : hermitian_chain [sx; sx] l l [2; 2].
  Proof.
    intros x s x' y s' y' Hs Hs' Hx Hy Hx' Hy'. assert (x = 0) by (cbn in Hx; lia). assert (y = 0) by (cbn in Hy; lia). assert (x' = 0) by (cbn in Hx'; lia). assert (y' = 0) by (cbn in Hy'; lia). subst.
    destruct s as [|s1 [|s2 [|? ?]]]; try (cbn in Hs; rewrite ?andb_false_r in Hs; discriminate). destruct s' as [|s1' [|s2' [|? ?]]]; try (cbn in Hs'; rewrite ?andb_false_r in Hs'; discriminate).
    unfold operator. cbn. rewrite (Nat.eqb_sym s1' s1), (Nat.eqb_sym s2' s2). destruct (s1 =? s1'), (s2 =? s2'); red_ex; repeat rewrite ?rconj_add, ?rconj_mul, ?conj0, ?conj1; ring.
  Qed.
  Notation P00 := [0; 0; 0; 0]. Notation P01 := [0; 0; 1; 0]. Notation P10 := [0; 1; 0; 0]. Notation P11 := [0; 1; 1; 0].
  Lemma sum_four (f : list nat -> N) : sumf N f (idxs sh) = radd (radd (f P00) (f P01)) (radd (f P10) (f P11)).
  Proof. cbn [idxs seq flat_map map app]. rewrite !sumf_cons, sumf_nil. ring. Qed.
  Lemma app_four v : apply sh MXX v P00 = v P11 /\ apply sh MXX v P01 = v P10 /\ apply sh MXX v P10 = v P01 /\ apply sh MXX v P11 = v P00.
  Proof. unfold apply. rewrite !sum_four. unfold MXX. red_ex. repeat split; ring. Qed.
  Lemma four_index i : in_range sh i = true -> i = P00 \/ i = P01 \/ i = P10 \/ i = P11.
  Proof. intros Hi. apply in_range4 in Hi as (i0 & i1 & i2 & i3 & -> & H0 & H1 & H2 & H3). assert (i0 = 0) by lia. assert (i3 = 0) by lia. subst. destruct (two_case H1) as [-> | ->], (two_case H2) as [-> | ->]; auto. Qed.

  (** * One update *)
  (** Both spins up. *)
  Definition up_only (v : list nat -> N) : Prop := v P01 = rz /\ v P10 = rz /\ v P11 = rz /\ sqa (v P00) = ro.
  Lemma up_unit v : up_only v -> sprod sh v v = ro.
  Proof. intros (Z1 & Z2 & Z3 & H). unfold sprod. rewrite sum_four, Z1, Z2, Z3, <- H. unfold sqa. ring. Qed.
  Lemma up_zero v : up_only v -> energy sh MXX v = rz.
  Proof. intros (Z1 & Z2 & Z3 & H). unfold energy, sprod. rewrite sum_four. destruct (app_four v) as (-> & -> & -> & ->). rewrite Z1, Z2, Z3, conj0. ring. Qed.
  Variable eps : N.
  Hypothesis P : le N rz eps. Hypothesis Z : eps <> rz. Hypothesis O : le N (rmul eps eps) ro.
  Lemma up_improvable v : up_only v -> improvable sh MXX eps v.
  Proof.
    intros H. left. unfold sprod, residual. rewrite (up_zero H). destruct H as (Z1 & Z2 & Z3 & H). rewrite sum_four. destruct (app_four v) as (-> & -> & -> & ->). rewrite Z1, Z2, Z3.
    replace (radd _ _) with (sqa (v P00)); [rewrite H; exact O|]. unfold rsub, sqa. replace (radd rz (ropp (rmul rz (v P00)))) with (rz : N) by ring. replace (radd rz (ropp (rmul rz rz))) with (rz : N) by ring. replace (radd (v P00) (ropp (rmul rz rz))) with (v P00) by ring. rewrite conj0. ring.
  Qed.
  Lemma bell_update He s : two_sites_hamil t_tdot t_perm sx sx = Ok He -> dsh s = sh -> up_only (dv s) ->
    exists Et U, t_update eps s He l l = Ok (Et, U) /\ dsh Et = [] /\ dv Et [] = ropp ro /\ dsh U = sh /\ sprod sh (dv U) (dv U) = ro /\ dv U P01 = rz /\ dv U P10 = rz /\ dv U P11 = ropp (dv U P00) /\ dv U P00 <> rz.
  Proof.
    intros EH Ss HU. destruct bell_hamil as (He' & EH' & FT & VM). rewrite EH in EH'. injection EH' as <-.
    destruct (@update_ok N l He l 1 2 2 1 FT eps s Ss) as (Et & U & EU & SE & SU & (K1 & K2 & (x & y & K3) & K4) & _).
    { intros i j Hi Hj. rewrite !VM by assumption. unfold MXX. rewrite (Nat.eqb_sym (nth 1 i 0)), (Nat.eqb_sym (nth 2 i 0)). destruct (_ && _); [apply conj1|apply conj0]. }
    { apply up_unit, HU. } { exact P. } { exact Z. }
    { destruct (up_improvable HU) as [Q | (lam & Q1 & Q2)].
      - assert (Q' : forall i, in_range sh i = true -> residual sh (heff l He l) (dv s) i = residual sh MXX (dv s) i) by (intros i Hi; apply (@residual_mat N sh _ _ VM); exact Hi).
        rewrite (@sprod_ext N sh _ _ _ _ Q' Q'). exact Q.
      - exfalso. specialize (Q2 P11 eq_refl). destruct (app_four (dv s)) as (_ & _ & _ & A). rewrite A in Q2. destruct HU as (_ & _ & Z3 & H). rewrite Z3 in Q2. apply (n_one N). rewrite <- H. unfold sqa. rewrite Q2. ring. }
    assert (AP : forall i, in_range sh i = true -> apply sh (heff l He l) (dv s) i = apply sh MXX (dv s) i) by (intros i Hi; apply (@apply_mat N sh _ _ VM); exact Hi).
    pose proof HU as (Z1 & Z2 & Z3 & H). destruct (app_four (dv s)) as (A0 & A1 & A2 & A3).
    assert (U0 : dv U P00 = rmul x (dv s P00)) by (rewrite K3 by reflexivity; unfold comb; rewrite AP, A0, Z3 by reflexivity; ring).
    assert (U1 : dv U P01 = rz) by (rewrite K3 by reflexivity; unfold comb; rewrite AP, A1, Z1, Z2 by reflexivity; ring).
    assert (U2 : dv U P10 = rz) by (rewrite K3 by reflexivity; unfold comb; rewrite AP, A2, Z1, Z2 by reflexivity; ring).
    assert (U3 : dv U P11 = rmul y (dv s P00)) by (rewrite K3 by reflexivity; unfold comb; rewrite AP, A3, Z3 by reflexivity; ring).
    assert (EE : energy sh MXX (dv U) = dv Et []) by (rewrite <- K2; symmetry; apply energy_mat; exact VM).
    assert (SQ : radd ro (dv Et []) = sqa (radd (dv U P00) (dv U P11))).
    { rewrite <- EE, <- K1. unfold energy, sprod. rewrite !sum_four. destruct (app_four (dv U)) as (-> & -> & -> & ->). rewrite U1, U2, conj0. unfold sqa. rewrite rconj_add. ring. }
    assert (LO : le N (ropp ro) (dv Et [])) by (apply le_nn; replace (rsub (dv Et []) (ropp ro)) with (radd ro (dv Et [])) by (unfold rsub; ring); rewrite SQ; apply n_nn_sq).
    assert (HI : le N (dv Et []) (ropp ro)).
    { specialize (K4 ro (ropp ro)). set (c := comb ro (ropp ro) (dv s) (apply sh (heff l He l) (dv s))) in K4.
      assert (C0 : c P00 = dv s P00) by (unfold c, comb; rewrite AP, A0, Z3 by reflexivity; ring). assert (C3 : c P11 = ropp (dv s P00)) by (unfold c, comb; rewrite AP, A3, Z3 by reflexivity; ring).
      assert (C1 : c P01 = rz) by (unfold c, comb; rewrite AP, A1, Z1, Z2 by reflexivity; ring). assert (C2 : c P10 = rz) by (unfold c, comb; rewrite AP, A2, Z1, Z2 by reflexivity; ring).
      assert (EC : energy sh (heff l He l) c = energy sh MXX c) by (apply energy_mat; exact VM). rewrite EC in K4. unfold energy, sprod in K4. rewrite !sum_four in K4. destruct (app_four c) as (B0 & B1 & B2 & B3). rewrite B0, B1, B2, B3, C0, C1, C2, C3, conj_opp, conj0 in K4.
      apply le_nn in K4. apply le_nn. apply nn_factor with (two N); [unfold two; apply n_nn_add; apply nn1|apply two_neq|].
      match type of K4 with n_leb N rz ?e = true => replace (rmul (two N) (rsub (ropp ro) (dv Et []))) with e; [exact K4|] end.
      unfold sqa in H. transitivity (rmul (rmul (rconj (dv s P00)) (dv s P00)) (rmul (two N) (rsub (ropp ro) (dv Et [])))); [unfold two, rsub; ring|]. rewrite H. ring. }
    assert (VE : dv Et [] = ropp ro) by (apply le_anti; assumption).
    assert (OP : dv U P11 = ropp (dv U P00)).
    { assert (Q : radd (dv U P00) (dv U P11) = rz) by (apply sq_zero; fold (sqa (radd (dv U P00) (dv U P11))); rewrite <- SQ, VE; ring). transitivity (rsub (radd (dv U P00) (dv U P11)) (dv U P00)); [unfold rsub; ring|]. rewrite Q. unfold rsub. ring. }
    exists Et, U. split; [exact EU|]. split; [exact SE|]. split; [exact VE|]. split; [exact SU|]. split; [exact K1|]. split; [exact U1|]. split; [exact U2|]. split; [exact OP|].
    intros Q. apply (n_one N). rewrite <- K1. unfold sprod. rewrite sum_four, U1, U2, OP, Q. ring.
  Qed.
  Lemma bell_cut (U M : t) : dsh U = sh -> dv U P01 = rz -> dv U P10 = rz -> dv U P11 = ropp (dv U P00) -> dv U P00 <> rz -> cut_matrix 2 U M -> isometries M (ex_bell M).
  Proof.
    intros SU U1 U2 U3 U0 [SM VM]. rewrite SU in SM, VM. cbn in SM.
    assert (V : forall i j, i < 2 -> j < 2 -> dv M [i; j] = dv U [0; i; j; 0]).
    { intros i j Hi Hj. specialize (VM [0; i] [j; 0]). apply two_case in Hi as [-> | ->]; apply two_case in Hj as [-> | ->]; apply VM; reflexivity. }
    apply bell_iso; rewrite ?V by lia; auto. rewrite U3. unfold sqa. rewrite conj_opp. ring.
  Qed.
  Lemma bell_factors (A u d v : t) : dsh A = sh -> dv A P01 = rz -> dv A P10 = rz -> dv A P11 = ropp (dv A P00) -> dv A P00 <> rz -> d_svd ex_bell A 2 = Ok (u, d, v) ->
    dv d [0] = n_sqrt N (sqa (dv A P00)) /\ dv u [0; 0; 0] = ndiv N (dv A P00) (n_sqrt N (sqa (dv A P00))) /\ dv u [0; 1; 0] = rz /\ dv v [0; 0; 0] = ro /\ dv v [1; 0; 0] = rz.
  Proof.
    destruct A as [shA f]. cbn [dsh dv]. intros -> U1 U2 U3 U0. unfold d_svd. cbn [dsh length Nat.ltb Nat.leb firstn skipn]. unfold t_reshape at 1.
    set (rA := d_reshape [prod_list [1; 2]; prod_list [2; 1]] (mkD sh f)). change (prod_list [prod_list [1; 2]; prod_list [2; 1]] =? prod_list (dsh (mkD sh f))) with true. cbn [rbind].
    assert (V00 : dv rA [0; 0] = f P00) by reflexivity. assert (V01 : dv rA [0; 1] = f P01) by reflexivity. assert (V10 : dv rA [1; 0] = f P10) by reflexivity. assert (V11 : dv rA [1; 1] = f P11) by reflexivity.
    unfold ex_bell. rewrite (proj2 (bell_cond rA)).
    2: { split; [reflexivity|]. rewrite V00, V01, V10, V11, U3. repeat split; auto. unfold sqa. rewrite conj_opp. ring. }
    rewrite V00. set (m := n_sqrt N (sqa (f P00))). unfold t_reshape. cbn [dsh app prod_list fold_right fold_left Nat.mul Nat.add]. cbv beta iota delta [Nat.eqb rbind d_id dsh]. cbn [prod_list fold_right fold_left Nat.mul Nat.add]. cbv beta iota delta [Nat.eqb].
    intros E. injection E as <- <- <-. repeat split; cbn; rewrite ?V00; reflexivity.
  Qed.
  Context {W : weights}.
  Variable wt : N -> W.
  Variable thr : W.
  Lemma bell_site fwd a a' He : two_sites_hamil t_tdot t_perm sx sx = Ok He -> dsh a = [1; 2; 1] -> dsh a' = [1; 2; 1] -> up_only (pair_amp a a') ->
    exists Et b b', t_site_update eps ex_bell wt thr 1 1 fwd a a' He l l = Some (Ok (Et, b, b')) /\ dsh Et = [] /\ dv Et [] = ropp ro /\ dsh b = [1; 2; 1] /\ dsh b' = [1; 2; 1] /\ up_only (pair_amp b b').
  Proof.
    intros EH Sa Sa' HU. destruct (@merge_ok N a a' 1 2 1 2 1 Sa Sa') as (s & Es & Ss & Vs).
    destruct (@bell_update He s EH Ss) as (Et & U & EU & SE & VE & SU & NU & U1 & U2 & U3 & U0). { unfold up_only. rewrite !Vs by reflexivity. exact HU. }
    destruct (@split_overlap N W eps ex_bell wt thr 1 1 bell_thin bell_val (Logic.conj (Z.le_refl 1) (Z.le_refl 1)) 1 2 2 1 U fwd) as (M & b & b' & k & w & ov & CM & ES & EB & Sb & Sb' & Bk & _ & Nv & _ & OS & _ & Zv & Bm & u & d & v & ED & VB).
    { cbn. lia. } { exact SU. } { intros M CM. apply (bell_cut SU U1 U2 U3 U0 CM). } { exact NU. }
    assert (k = 1) by lia. subst k. exists Et, b, b'. split; [rewrite (@site_halves N W eps ex_bell wt thr 1 1 fwd a a' He l l s Et U Es EU), ES; cbn [obind]; rewrite EB; reflexivity|].
    split; [exact SE|]. split; [exact VE|]. split; [exact Sb|]. split; [exact Sb'|].
    destruct (@bell_factors U u d v SU U1 U2 U3 U0 ED) as (D0 & F0 & F1 & G0 & G1).
    assert (PV : forall i, in_range sh i = true -> pair_amp b b' i = rmul (rmul (dv u [nth 0 i 0; nth 1 i 0; 0]) (ndiv N (dv d [0]) ov)) (rconj (dv v [nth 2 i 0; nth 3 i 0; 0]))).
    { intros i Hi. rewrite VB by exact Hi. unfold schmidt. cbn [seq]. rewrite sumf_cons, sumf_nil. ring. }
    unfold up_only. rewrite !PV by reflexivity. cbn [nth]. rewrite F0, F1, G0, G1, D0, conj0, conj1. repeat split; try ring.
    set (z := dv U P00) in *. set (m := n_sqrt N (sqa z)) in *. pose proof (root_nz U0) as MZ. fold m in MZ. pose proof (root_nn z) as MN. fold m in MN. pose proof (n_sqrt_sq N _ (n_nn_sq N z)) as MS. fold (sqa z) m in MS.
    assert (OM : rmul ov ov = rmul m m).
    { rewrite OS. cbn [seq]. rewrite sumf_cons, sumf_nil. destruct CM as [SM VM]. rewrite SU in SM, VM. cbn in SM.
      assert (V : forall i j, i < 2 -> j < 2 -> dv M [i; j] = dv U [0; i; j; 0]) by (intros i j Hi Hj; specialize (VM [0; i] [j; 0]); apply two_case in Hi as [-> | ->]; apply two_case in Hj as [-> | ->]; apply VM; reflexivity).
      unfold ex_bell. rewrite (proj2 (bell_cond M)); [|rewrite !V by lia; repeat split; auto; rewrite U3; change (dv U P00) with z; unfold sqa; rewrite conj_opp; ring]. cbn [fst snd dv]. rewrite V by lia. fold z m. ring. }
    assert (Q1 : sqa (ndiv N z m) = ro).
    { apply (@mul_eq N (rmul m m)); [intros Q; apply mul_zero in Q as [Q|Q]; contradiction|]. rewrite rmul_1_r. transitivity (sqa (rmul m (ndiv N z m))); [unfold sqa; rewrite rconj_mul, (n_nn_conj N m MN); ring|]. rewrite div_mul by exact MZ. symmetry. exact MS. }
    assert (Q2 : sqa (ndiv N m ov) = ro).
    { apply (@mul_eq N (rmul ov ov)); [intros Q; apply mul_zero in Q as [Q|Q]; contradiction|]. rewrite rmul_1_r. transitivity (sqa (rmul ov (ndiv N m ov))); [unfold sqa; rewrite rconj_mul, (n_nn_conj N ov Nv); ring|]. rewrite div_mul by exact Zv. unfold sqa. rewrite (n_nn_conj N m MN). symmetry. exact OM. }
    transitivity (rmul (sqa (ndiv N z m)) (sqa (ndiv N m ov))); [unfold sqa; rewrite !rconj_mul, conj1; ring|]. rewrite Q1, Q2. ring.
  Qed.
  Lemma bell_energy (b b' : t) : dsh b = [1; 2; 1] -> dsh b' = [1; 2; 1] -> expectation [b; b'] [b; b'] [sx; sx] l l = energy sh MXX (pair_amp b b').
  Proof.
    intros Sb Sb'. destruct bell_hamil as (He & EH & FT & VM). transitivity (energy sh (heff l He l) (pair_amp b b')).
    - apply (@pair_energy N [] [] [] [] sx sx l l 1 1 1 1 1 2 2 1 1 1 1) with 1; reflexivity || assumption.
    - apply energy_mat. exact VM.
  Qed.
  Lemma spin_up : up_only (pair_amp (ex_spin N) (ex_spin N)).
  Proof. unfold up_only. rewrite !ex_pair by reflexivity. unfold sqa. red_ex. rewrite conj1. repeat split; try ring. Qed.
  Lemma bell_iso_update He s Et' U M : two_sites_hamil t_tdot t_perm sx sx = Ok He -> merge t_tdot (ex_spin N) (ex_spin N) = Ok s -> t_update eps s He l l = Ok (Et', U) -> cut_matrix 2 U M -> isometries M (ex_bell M).
  Proof.
    intros EH. intros Es EU CM. destruct (@merge_ok N (ex_spin N) (ex_spin N) 1 2 1 2 1 eq_refl eq_refl) as (s' & Es' & Ss & Vs). rewrite Es in Es'. injection Es' as <-.
    destruct (@bell_update He s EH Ss) as (Et2 & U' & EU' & _ & _ & SU & _ & U1 & U2 & U3 & U0). { unfold up_only. rewrite !Vs by reflexivity. exact spin_up. }
    rewrite EU in EU'. injection EU' as _ <-. exact (@bell_cut U M SU U1 U2 U3 U0 CM).
  Qed.
  Lemma bell_refuted forward : exists hs a He b b' Et, two_sites_hamil t_tdot t_perm (nth 0 hs a) (nth 1 hs a) = Ok He /\ mps_fit (@dsh N) (fun k => k) [a; a] 1 1 /\ mpo_fit (@dsh N) (fun k => k) hs [a; a] [a; a] 1 1 /\
    hermitian_chain hs l l (map (size 1) [a; a]) /\ chain_norm [a; a] 1 1 = ro /\
    improvable [1; 2; 2; 1] (local_matrix [] [] (nth 0 hs a) (nth 1 hs a) [] [] l l) eps (pair_amp a a) /\
    (forall s Et U M, merge t_tdot a a = Ok s -> t_update eps s He l l = Ok (Et, U) -> cut_matrix 2 U M -> isometries M (ex_bell M)) /\
    t_site_update eps ex_bell wt thr 1 1 forward a a He l l = Some (Ok (Et, b, b')) /\ chain_norm [b; b'] 1 1 = ro /\ dv Et [] = ropp ro /\ expectation [b; b'] [b; b'] hs l l = rz.
  Proof.
    destruct bell_hamil as (He & EH & _). destruct (@bell_site forward (ex_spin N) (ex_spin N) He EH eq_refl eq_refl spin_up) as (Et & b & b' & E & _ & VE & Sb & Sb' & UP).
    exists [sx; sx], (ex_spin N), He, b, b', Et. cbn [nth]. split; [exact EH|]. split; [exists 2, 1; split; [reflexivity|]; exists 2, 1; split; reflexivity|]. split; [exists 1, 2, 2; repeat split; exists 1, 2, 2; repeat split|]. split; [exact bell_herm|]. split; [apply ex_norm|].
    split; [apply improvable_ext with (M' := MXX) (v' := pair_amp (ex_spin N) (ex_spin N)); [exact bell_local|reflexivity|apply up_improvable, spin_up]|].
    split; [|split; [exact E|]; split; [rewrite (@norm_pair N b b' 1 2 1 2 1 Sb Sb'); apply up_unit, UP|]; split; [exact VE|rewrite (@bell_energy b b' Sb Sb'); apply up_zero, UP]].
    intros s Et' U M. exact (@bell_iso_update He s Et' U M EH).
  Qed.
End Bell.
