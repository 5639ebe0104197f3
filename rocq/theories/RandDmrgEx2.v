(** A spin in a field and a site of dimension one: a run of DMRG from a random chain ends with the lowest energy. *)
From Verif Require Import Base Ring Index SpecIndex Dense IndexProofs BTensor BTensorArith Bcast Tensordot SpecTensordot Chain SpecChain ChainProofs ChainThms ChainInst ChainEnd
  SpecMove SpecSvd SvdDense SvdEx MoveOc MoveProofs MoveInst Truncate SpecTruncate TruncateProofs BSvd BTrunc Num Lanczos SpecLanczos LanczosVec LanczosProofs LanczosEx SiteUpdate SpecSiteUpdate ChainNorm ChainEnergy SiteUpdateProofs SiteUpdateThms SiteUpdateEx
  Dmrg DmrgProofs DmrgRun SpecDmrgRun DmrgRunProofs DmrgRunThms DmrgFree DmrgFreeThms DmrgRunMain DmrgRunEx EigenUpdate EigenStep RandDmrg SpecRandDmrg RandDmrgThms RandDmrgEx.
Set Implicit Arguments.

Section Field.
  Variable N : numeric.
  Context {W : weights}.
  Add Ring Rr : (ring_th N).
  Notation t := (dense N).
  Notation idk := (fun k : nat => k).
  Notation nn x := (n_leb N rz x = true).
  Notation l := (@d_full N [1; 1; 1] ro).
  Notation c := (n_inv N (two N)).
  Notation c2 := (rmul c c).
  Notation c4 := (rmul c2 c2).
  Notation c8 := (rmul c4 c4).
  Notation sh := [1; 2; 1; 1].
  Notation P0 := (DmrgRunEx.P0). Notation P1 := (DmrgRunEx.P1).
  Definition field_op : t := mkD [1; 2; 1; 2] (fun i => if nth 1 i 0 =? nth 3 i 0 then (if nth 1 i 0 =? 0 then ropp ro else ro) else rz).
  Definition field_ham : list t := [field_op; ex_op1 N].
  Notation hs := field_ham.
  Definition field_draw (i : nat) (j : list nat) : N := if (i =? 0) && negb (nth 1 j 0 =? 0) then rz else c.
  Ltac red_ex := cbn; cbv beta iota delta [Nat.eqb andb negb].
  Section Values.
    Variables b b' : t.
    Hypothesis Sb : dsh b = [1; 2; 1]. Hypothesis Sb' : dsh b' = [1; 1; 1].
    Notation w := (pair_amp b b').
    Lemma fitf : mps_fit (@dsh N) idk [b; b'] 1 1.
    Proof. exists 2, 1. split; [exact Sb|]. exists 1, 1. split; [exact Sb'|reflexivity]. Qed.
    Lemma ofitf : mpo_fit (@dsh N) idk hs [b; b'] [b; b'] 1 1.
    Proof. exists 1, 2, 2. rewrite Sb. repeat split. exists 1, 1, 1. rewrite Sb'. repeat split. Qed.
    Lemma hermf : hermitian_chain hs l l [2; 1].
    Proof.
      intros x s x' y s' y' Hs Hs' Hx Hy Hx' Hy'. assert (x = 0) by (cbn in Hx; lia). assert (y = 0) by (cbn in Hy; lia). assert (x' = 0) by (cbn in Hx'; lia). assert (y' = 0) by (cbn in Hy'; lia). subst.
      destruct s as [|s1 [|s2 [|? ?]]]; try (cbn in Hs; rewrite ?andb_false_r in Hs; discriminate). destruct s' as [|s1' [|s2' [|? ?]]]; try (cbn in Hs'; rewrite ?andb_false_r in Hs'; discriminate).
      unfold operator. cbn. rewrite (Nat.eqb_sym s1' s1). destruct (Nat.eqb_spec s1 s1') as [->|]; [destruct (s1' =? 0)|]; red_ex; repeat rewrite ?rconj_add, ?rconj_mul, ?conj_opp, ?conj0, ?conj1; ring.
    Qed.
    Definition MF (i j : list nat) : N := if nth 1 i 0 =? nth 1 j 0 then (if nth 1 i 0 =? 0 then ropp ro else ro) else rz.
    Lemma localf i j : in_range sh i = true -> in_range sh j = true -> local_matrix [] [] field_op (ex_op1 N) [] [] l l i j = MF i j.
    Proof.
      intros Hi Hj. apply two_index in Hi, Hj. unfold local_matrix, left_part, right_part, element, configs, MF.
      destruct Hi as [-> | ->], Hj as [-> | ->]; unfold DmrgRunEx.P0, DmrgRunEx.P1; red_ex; rewrite ?conj1, ?conj0; ring.
    Qed.
    Lemma at_field pre a a' post hpre h h' hpost : at_pair 0 [b; b'] hs pre a a' post hpre h h' hpost -> pre = [] /\ a = b /\ a' = b' /\ post = [] /\ hpre = [] /\ h = field_op /\ h' = ex_op1 N /\ hpost = [].
    Proof. intros (E1 & E2 & L1 & L2). destruct pre; [|discriminate]. destruct hpre; [|discriminate]. unfold field_ham in E2. injection E1 as <- <- <-. injection E2 as <- <- <-. repeat split. Qed.
    Lemma goodf eps (wt : N -> W) : good eps (@ex_col N) hs l l 0 [b; b'].
    Proof.
      split.
      - intros pre a a' post hpre h h' hpost Le Re He s E U M AT EL ER EH ES EU CM. apply at_field in AT as (-> & -> & -> & -> & -> & -> & -> & ->). injection EL as <-. injection ER as <-.
        pose proof (@env_fits N [] [] [] [] field_op (ex_op1 N) l l 1 1 1 1 1 2 1 1 1 1 1 eq_refl eq_refl eq_refl eq_refl eq_refl eq_refl eq_refl eq_refl l He l eq_refl eq_refl EH) as FT.
        pose proof (@heff_hermitian N [] [] [] [] field_op (ex_op1 N) l l 1 1 1 1 1 2 1 1 1 1 1 eq_refl eq_refl eq_refl eq_refl eq_refl eq_refl eq_refl eq_refl l He l eq_refl eq_refl EH hermf) as HM.
        destruct (@merge_ok N b b' 1 2 1 1 1 Sb Sb') as (s' & Es' & Ss & _). rewrite ES in Es'. injection Es' as <-.
        destruct (@update_run N l He l 1 2 1 1 FT eps s Ss HM) as (_ & _ & _ & _ & _ & _ & _ & _ & _ & _ & _ & Et' & U' & EU' & _ & _ & SU & _).
        rewrite EU in EU'. injection EU' as <- <-. apply col_iso with 2; [lia|]. destruct CM as [CM _]. rewrite SU in CM. exact CM.
      - intros k (pre & a & a' & post & E & L1 & ->). destruct pre; [|discriminate]. injection E as <- <- <-. unfold size. rewrite Sb, Sb'. cbn. lia.
    Qed.
    Lemma fullf : full_bond [b; b'] 0.
    Proof. intros k (pre & a & a' & post & E & L1 & ->). destruct pre; [|discriminate]. injection E as <- <- <-. exists b. split; [reflexivity|]. unfold size. rewrite Sb, Sb'. reflexivity. Qed.
    Lemma appf v : apply sh MF v P0 = ropp (v P0) /\ apply sh MF v P1 = v P1.
    Proof. unfold apply. rewrite !sum_two. unfold DmrgRunEx.P0, DmrgRunEx.P1, MF. red_ex. split; ring. Qed.
    (** A chain without spin down is an eigenvector. *)
    Lemma eigenf : w P1 = rz -> forall i, in_range sh i = true -> apply sh (local_matrix [] [] field_op (ex_op1 N) [] [] l l) w i = rmul (ropp ro) (w i).
    Proof.
      intros W1 i Hi. transitivity (apply sh MF w i). { unfold apply. apply sumf_ext. intros j Hj. apply idxs_In in Hj. rewrite localf by assumption. reflexivity. }
      destruct (appf w) as [A0 A1]. apply two_index in Hi as [-> | ->]; rewrite ?A0, ?A1, ?W1; ring.
    Qed.
    Lemma energyf : w P1 = rz -> chain_energy hs l l [b; b'] = ropp (chain_norm [b; b'] 1 1).
    Proof.
      intros W1. rewrite (@norm_pair N b b' 1 2 1 1 1 Sb Sb'). unfold chain_energy, field_ham.
      destruct (@hamil_ok N field_op (ex_op1 N) 1 2 1 1 1 eq_refl eq_refl) as (He & EH & _).
      etransitivity; [apply (@pair_energy N [] [] [] [] field_op (ex_op1 N) l l 1 1 1 1 1 2 1 1 1 1 1 eq_refl eq_refl eq_refl eq_refl eq_refl eq_refl eq_refl eq_refl l He l eq_refl eq_refl EH b b' 1 Sb Sb')|].
      unfold energy. etransitivity; [apply sprod_ext with (v' := w) (w' := fun i => rmul (ropp ro) (w i)); [reflexivity|]|].
      - intros i Hi. etransitivity; [|apply eigenf; assumption]. unfold apply. apply sumf_ext. intros j Hj. apply idxs_In in Hj. f_equal.
        apply (@heff_local N [] [] [] [] field_op (ex_op1 N) l l 1 1 1 1 1 2 1 1 1 1 1 eq_refl eq_refl eq_refl eq_refl eq_refl eq_refl eq_refl eq_refl l He l eq_refl eq_refl EH); assumption.
      - unfold sprod. rewrite !sum_two. ring.
    Qed.
    Lemma energy_low : le N (ropp (chain_norm [b; b'] 1 1)) (chain_energy hs l l [b; b']).
    Proof.
      rewrite (@norm_pair N b b' 1 2 1 1 1 Sb Sb'). unfold chain_energy, field_ham.
      destruct (@hamil_ok N field_op (ex_op1 N) 1 2 1 1 1 eq_refl eq_refl) as (He & EH & _).
      assert (Q : expectation [b; b'] [b; b'] [field_op; ex_op1 N] l l = sprod sh w (apply sh MF w)).
      { etransitivity; [apply (@pair_energy N [] [] [] [] field_op (ex_op1 N) l l 1 1 1 1 1 2 1 1 1 1 1 eq_refl eq_refl eq_refl eq_refl eq_refl eq_refl eq_refl eq_refl l He l eq_refl eq_refl EH b b' 1 Sb Sb')|].
        unfold energy. apply sprod_ext; [reflexivity|]. intros i Hi. unfold apply. apply sumf_ext. intros j Hj. apply idxs_In in Hj. f_equal. rewrite <- localf by assumption.
        apply (@heff_local N [] [] [] [] field_op (ex_op1 N) l l 1 1 1 1 1 2 1 1 1 1 1 eq_refl eq_refl eq_refl eq_refl eq_refl eq_refl eq_refl eq_refl l He l eq_refl eq_refl EH); assumption. }
      rewrite Q. destruct (appf w) as [A0 A1]. unfold sprod. rewrite !sum_two, A0, A1. apply le_nn. replace (rsub _ _) with (radd (rmul (rconj (w P1)) (w P1)) (rmul (rconj (w P1)) (w P1))) by (unfold rsub; ring). apply n_nn_add; apply n_nn_sq.
    Qed.
  End Values.

  Lemma shapesf (sites : list t) : mps_fit (@dsh N) idk sites 1 1 -> map (size 1) sites = [2; 1] -> chain_norm sites 1 1 = ro -> gauge 0 sites -> exists b b', sites = [b; b'] /\ dsh b = [1; 2; 1] /\ dsh b' = [1; 1; 1].
  Proof.
    intros F PS NB (_ & G). destruct sites as [|b [|b' [|? ?]]]; try discriminate. exists b, b'. split; [reflexivity|]. unfold size in PS. destruct F as (p & k & Sb & p' & k' & Sb' & Ek). cbn in Ek. subst k'. cbn [map] in PS. rewrite Sb, Sb' in PS. injection PS as -> ->.
    assert (K : k = 1).
    { cbn [skipn Nat.add] in G. inversion G as [|A Al G1 _ EA]. subst A Al. destruct k as [|[|k]]; [exfalso|reflexivity|exfalso].
      - apply (n_one N). rewrite <- NB. rewrite (@norm_pair N b b' 1 2 0 1 1 Sb Sb'). apply sumf_zero. intros i Hi. apply idxs_In, in_range4 in Hi as (i0 & i1 & i2 & i3 & -> & H0 & H1 & H2 & H3). rewrite (@pair_val N b b' 0 1) by (unfold size; rewrite ?Sb, ?Sb'; reflexivity || exact H3). cbn. ring.
      - unfold right_isometry in G1. unfold size in G1. rewrite Sb' in G1. cbn [nth] in G1. pose proof (G1 0 0 ltac:(lia) ltac:(lia)) as Q0. pose proof (G1 1 1 ltac:(lia) ltac:(lia)) as Q1. pose proof (G1 0 1 ltac:(lia) ltac:(lia)) as Q2.
        cbn [seq] in Q0, Q1, Q2. rewrite !sumf_cons, !sumf_nil in Q0, Q1, Q2. change (0 =? 0) with true in Q0. change (1 =? 1) with true in Q1. change (0 =? 1) with false in Q2. cbv iota in Q0, Q1, Q2. set (u := dv b' [0; 0; 0]) in *. set (w := dv b' [1; 0; 0]) in *.
        assert (Z2 : rmul u (rconj w) = rz) by (rewrite <- Q2; ring).
        assert (U0 : u <> rz) by (intros Q; rewrite Q, conj0 in Q0; apply (n_one N); rewrite <- Q0; ring). assert (W0 : w <> rz) by (intros Q; rewrite Q, conj0 in Q1; apply (n_one N); rewrite <- Q1; ring).
        assert (CU : forall z : N, rconj z = rz -> z = rz) by (intros z Q; rewrite <- (rconj_conj N z), Q; apply conj0).
        apply mul_zero in Z2 as [Q|Q]; auto. }
    subst k. split; assumption.
  Qed.
  Variables (slack : nat) (eps e_init crit : N) (wt : N -> W) (thr : W) (mx : Z) (undef : t).
  Notation dsvd := (@ex_col N).
  Hypothesis Hslack : 0 < slack.
  Hypothesis P : le N rz eps. Hypothesis Z : eps <> rz. Hypothesis O : le N eps c8.
  Hypothesis Hmx : (1 <= 1 <= mx)%Z.
  Definition field_sites : list t := [mkD [1; 2; 1] (field_draw 0); mkD [1; 1; 1] (field_draw 1)].
  Notation ups hs2 := (t_updates eps dsvd wt thr 1 mx hs hs2).
  Notation base := (base hs l l 1 1 1 1 [2; 1]).
  Definition okf (s : dst t t) : Prop := exists b b', d_sites s = [b; b'] /\ dsh b = [1; 2; 1] /\ dsh b' = [1; 1; 1].
  Lemma base_inv p s : base p s -> inv hs l l 1 1 1 1 [2; 1] p s.
  Proof.
    intros I. pose proof I as (Ep & Hp & F & Of & Ps & LE & EL & ER). cbn [length] in Hp. assert (p = 0) by (cbn in Hp; lia). subst p. split; [exact Ep|]. split; [exact Hp|]. do 6 (split; [assumption|]). split; [constructor|].
    assert (LL : length (d_sites s) = 2) by (rewrite <- (map_length (size 1)), Ps; reflexivity). rewrite skipn_all2 by lia. constructor.
  Qed.
  Lemma pairf : pair_amp (mkD [1; 2; 1] (field_draw 0) : t) (mkD [1; 1; 1] (field_draw 1)) P0 = c2 /\ pair_amp (mkD [1; 2; 1] (field_draw 0) : t) (mkD [1; 1; 1] (field_draw 1)) P1 = rz.
  Proof. unfold DmrgRunEx.P0, DmrgRunEx.P1. rewrite !(@pair_val N _ _ 1 1) by (reflexivity || lia). unfold field_draw. red_ex. split; ring. Qed.
  Lemma field_steps env hs2 : compute_2sites_hamil t_tdot t_perm hs = Ok hs2 -> base 0 (mkDst field_sites env 0) ->
    exists s1 E1 s2 E2, ups hs2 1 (mkDst field_sites env 0) 0 0 = Some (Ok (s1, 0%Z, [E1])) /\ ups hs2 2 (mkDst field_sites env 0) 0 0 = Some (Ok (s2, 0%Z, [E1; E2])) /\
      okf s1 /\ okf s2 /\ d_oc s1 = 0%Z /\ d_oc s2 = 0%Z /\ dsh E2 = [] /\ improvable_at eps hs l l (d_sites s1) 0 /\ le N (dv E2 []) (ropp ro).
  Proof.
    intros E2 I0. destruct pairf as (V0 & V1).
    destruct (@eigen_step N W eps dsvd wt thr 1 mx (@col_thin N) (@col_val N) Hmx hs hs2 l l 1 1 1 1 [2; 1] eq_refl eq_refl E2 hermf P Z 0 (mkDst field_sites env 0) 0 0 (ropp ro) I0) as (s1 & Et1 & b & b' & U1 & I1 & D1 & _ & _ & H1).
    { split; [reflexivity|]. split; [auto|]. cbn. lia. }
    { apply goodf; auto. }
    { rewrite conj_opp, conj1. reflexivity. }
    { intros pre a a' post hpre h h' hpost AT. apply at_field in AT as (-> & -> & -> & -> & -> & -> & -> & ->). unfold size. cbn [nth dsh]. split; [apply eigenf; exact V1|].
      assert (W1 : sprod sh (pair_amp (mkD [1; 2; 1] (field_draw 0) : t) (mkD [1; 1; 1] (field_draw 1))) (pair_amp (mkD [1; 2; 1] (field_draw 0)) (mkD [1; 1; 1] (field_draw 1))) = c4).
      { unfold sprod. rewrite sum_two, V0, V1, conj0, rconj_mul, half_conj. ring. }
      rewrite W1. split.
      - intros Q. apply (n_one N). rewrite <- (@four N). assert (Q' : c2 = rz) by (apply mul_zero in Q as [Q|Q]; exact Q). rewrite Q'. ring.
      - assert (NZ : nn (rmul c2 (rsub ro c4))) by (apply n_nn_mul; [apply nn_c2|apply nn_1c4]).
        apply root_le with (rmul c2 (rsub ro c4)); [exact NZ|ring|replace (rmul _ c4) with (rmul (rmul c2 (rsub ro c4)) (rmul c2 (rsub ro c4))) by ring; apply n_nn_mul; exact NZ|].
        apply le_trans with (rmul c4 (rsub ro c4)); [apply bound0, O|]. apply le_nn. replace (rsub _ _) with (rmul (rmul c2 (rsub ro c4)) (rsub ro c2)) by (unfold rsub; ring). apply n_nn_mul; [exact NZ|rewrite one_c2; apply nn_3c2]. }
    destruct (H1 _ _ eq_refl eq_refl) as (k & Hk & Sb & Sb' & NB & _ & VB). change (sprod sh (pair_amp b b') (pair_amp b b') = ro) in NB. unfold size in Hk, Sb, Sb'. cbn in Hk, Sb, Sb'. assert (k = 1) by lia. subst k.
    cbn [d_sites field_sites firstn skipn app Nat.add] in D1. destruct (VB eq_refl) as (z & VZ).
    assert (W1 : pair_amp b b' P1 = rz) by (rewrite VZ by reflexivity; rewrite V1; ring). clear VB VZ.
    assert (N1 : chain_norm [b; b'] 1 1 = ro) by (rewrite (@norm_pair N b b' 1 2 1 1 1 Sb Sb'); exact NB).
    assert (IM : improvable_at eps hs l l (d_sites s1) 0).
    { rewrite D1. intros pre a a' post hpre h h' hpost AT. apply at_field in AT as (-> & -> & -> & -> & -> & -> & -> & ->). unfold size. rewrite Sb, Sb'. cbn [nth]. right. exists (ropp ro). split; [apply minus_one|]. apply eigenf; assumption. }
    assert (D : dir_ok hs 0 0 0) by (split; [reflexivity|]; split; [auto|]; cbn; lia).
    assert (G : good eps dsvd hs l l 0 (d_sites s1)) by (rewrite D1; apply goodf; auto). pose proof (base_inv I1) as J1.
    destruct (@step_go N W eps dsvd wt thr 1 mx P Z (@col_thin N) (@col_val N) Hmx hs hs2 l l 1 1 1 1 [2; 1] eq_refl eq_refl E2 hermf 0 s1 0 0 J1 D G) as (s2 & Et2 & U2 & SE & EE); [rewrite D1; exact N1|exact IM|].
    destruct (@step_free N W eps dsvd wt thr 1 mx (@col_thin N) (@col_val N) Hmx hs hs2 l l 1 1 1 1 [2; 1] eq_refl eq_refl E2 hermf 0 s1 0 0 s2 Et2 I1 D G) as (I2 & _ & _ & NG); [|exact U2|].
    { intros A k HA Hk'. rewrite D1 in HA. destruct HA as [<-|[<-|[]]]; rewrite ?Sb, ?Sb' in Hk'; cbn in Hk'; lia. }
    destruct (NG J1) as (N2 & G2). pose proof I2 as (O2 & _ & F2 & _ & PS2 & _). pose proof I1 as (O1 & _).
    destruct (shapesf F2 PS2 N2 G2) as (d & d' & D2 & Sd & Sd').
    exists s1, Et1, s2, Et2.
    split. { unfold t_updates. cbn [updates]. rewrite U1. cbn [obind]. rewrite O1. reflexivity. }
    split. { unfold t_updates. cbn [updates]. rewrite U1. cbn [obind]. rewrite O1. cbn [Z.of_nat Z.eqb orb Z.mul]. rewrite U2. reflexivity. }
    split; [exists b, b'; auto|]. split; [exists d, d'; auto|]. split; [exact O1|]. split; [exact O2|]. split; [exact SE|]. split; [exact IM|].
    rewrite D2 in EE. destruct (EE (fullf Sd Sd')) as (_ & Q). rewrite D1, (@energyf b b' Sb Sb' W1), N1 in Q. exact Q.
  Qed.
  Notation reach := (reached slack eps dsvd wt thr 1 mx undef hs field_sites 0).
  Theorem field_run : random_MPS_hamil field_draw 1 hs = Ok field_sites /\
    (forall k s Es, k <= 2 -> reach k s Es -> okf s /\ d_oc s = 0%Z /\ (k = 1 -> improvable_at eps hs l l (d_sites s) 0)) /\
    exists E sites', t_dmrg_random field_draw slack eps e_init crit dsvd wt thr 1 mx undef 1 hs = Some (Ok (E, sites', 0%Z)) /\ le N (dv E []) (ropp ro) /\ le N (ropp ro) (chain_energy hs l l sites').
  Proof.
    assert (ES : random_MPS_hamil field_draw 1 hs = Ok field_sites) by reflexivity. split; [exact ES|].
    assert (F : mps_fit (@dsh N) (fun k => k) field_sites 1 1) by (apply fitf; reflexivity). assert (Of : mpo_fit (@dsh N) (fun k => k) hs field_sites field_sites 1 1) by (apply ofitf; reflexivity).
    assert (HC : hermitian_chain hs l l (map (@size N 1) field_sites)) by apply hermf. destruct pairf as (V0 & V1).
    assert (N0 : chain_norm field_sites 1 1 = c4). { unfold field_sites. rewrite (@norm_pair N _ _ 1 2 1 1 1) by reflexivity. unfold sprod. rewrite sum_two, V0, V1, conj0, rconj_mul, half_conj. ring. }
    assert (NZ : chain_norm field_sites 1 1 <> rz). { rewrite N0. intros Q. apply (n_one N). rewrite <- (@four N). assert (Q' : c2 = rz) by (apply mul_zero in Q as [Q|Q]; exact Q). rewrite Q'. ring. }
    assert (NE : le N eps (chain_norm field_sites 1 1)).
    { rewrite N0. apply le_trans with c8; [exact O|]. apply le_nn. replace (rsub _ c8) with (rmul c4 (rsub ro c4)) by (unfold rsub; ring). apply n_nn_mul; [apply n_nn_mul; apply nn_c2|apply nn_1c4]. }
    destruct (@start_base N W slack eps dsvd wt undef Hslack (@col_thin N) (@col_val N) hs field_sites 1 1 1 1 0 1 ltac:(cbn; lia) ltac:(cbn; lia) F Of HC) as (env & hs2 & G1 & G2 & I0).
    destruct (@field_steps env hs2 G2 I0) as (s1 & E1 & s2 & E2 & U1 & U2 & K1 & K2 & O1 & O2 & SE & IM & LE).
    assert (RS : forall k s Es, k <= 2 -> reach k s Es -> okf s /\ d_oc s = 0%Z /\ (k = 1 -> improvable_at eps hs l l (d_sites s) 0)).
    { intros k s Es Hk (env' & hs2' & st & G1' & G2' & U). rewrite G1 in G1'. rewrite G2 in G2'. injection G1' as <-. injection G2' as <-. destruct k as [|[|[|k]]]; [| | |lia].
      - injection U as <- _ _. split; [|split; [reflexivity|discriminate]]. unfold okf. cbn [d_sites]. unfold field_sites. eauto 10.
      - change (ups hs2 1 (mkDst field_sites env 0) 0 0 = Some (Ok (s, st, Es))) in U. rewrite U1 in U. injection U as <- _ _. auto.
      - change (ups hs2 2 (mkDst field_sites env 0) 0 0 = Some (Ok (s, st, Es))) in U. rewrite U2 in U. injection U as <- _ _. split; [exact K2|]. split; [exact O2|discriminate]. }
    split; [exact RS|].
    assert (R2 : reach 2 s2 [E1; E2]) by (exists env, hs2, 0%Z; auto).
    assert (HG : forall k s Es p, k < 1 * sweep_size (length field_sites) -> reach k s Es -> d_oc s = Z.of_nat p -> good eps dsvd hs l l p (d_sites s)).
    { intros k s Es p Hk R Ep. destruct (RS k s Es) as ((b & b' & D & Sb & Sb') & Q & _); [change (k < 2) in Hk; lia|exact R|]. assert (p = 0) by lia. subst p. rewrite D. apply goodf; auto. }
    assert (HM : forall k s Es a Mx, k <= 1 * sweep_size (length field_sites) -> reach k s Es -> d_oc s = 0%Z -> nth_error (d_sites s) 1 = Some a -> cut_matrix 1 a Mx -> isometries Mx (dsvd Mx)).
    { intros k s Es a Mx Hk R _ Na CM. destruct (RS k s Es) as ((b & b' & D & Sb & Sb') & _ & _); [exact Hk|exact R|]. rewrite D in Na. injection Na as <-. apply col_iso with 1; [lia|]. destruct CM as [CM _]. rewrite Sb' in CM. exact CM. }
    destruct (@finish N W slack eps crit dsvd wt thr 1 mx undef Hslack (@col_thin N) (@col_val N) Hmx hs field_sites 1 1 1 1 0 1 ltac:(cbn; lia) ltac:(cbn; lia) F Of HC) with (j := 1) (s := s2) (Es := [E1; E2]) (E := E2) as (s' & EF & Fs & PS & NN & CC & EN); auto.
    exists E2, s'. split; [|split; [exact LE|]].
    - unfold t_dmrg_random. change (Z.to_nat 1) with 1. rewrite ES. cbn [obind]. unfold t_dmrg. rewrite G1. cbn [obind]. rewrite G2. cbn [obind]. unfold t_dmrg_impl.
      rewrite (@norm_ok N W slack crit dsvd wt undef Hslack (@col_thin N) (@col_val N) hs field_sites 1 1 1 1 0 ltac:(cbn; lia) ltac:(cbn; lia) F Of). cbn [obind].
      destruct (reqb (chain_norm field_sites 1 1) rz) eqn:QZ; [apply reqb_spec in QZ; contradiction|]. unfold le in NE. rewrite NE. cbn [orb negb]. cbn [sweeps].
      change (updates (compute_left_env t_tdot t_conj) (compute_right_env t_tdot t_conj) (t_site_update eps dsvd wt thr 1 mx) hs hs2 (sweep_size (length field_sites)) (mkDst field_sites env (Z.of_nat (start_pos (length field_sites) 0))) (start_step (length field_sites) 0) (Z.of_nat (length field_sites) - 2)) with (ups hs2 2 (mkDst field_sites env 0) 0 0).
      rewrite U2. cbn [obind last].
      assert (CV : exists b, t_converged crit (mkD [] (fun _ => e_init)) E2 = Ok b) by (unfold t_converged, t_zip, t_item; rewrite SE; cbn; change (1 =? 1) with true; cbn; eauto).
      destruct CV as (b & ->). cbn [obind]. cbv zeta in EF. destruct b; cbn [obind]; exact EF.
    - destruct K2 as (b & b' & D2 & Sb & Sb'). assert (NS : chain_norm (d_sites s2) 1 1 = ro).
      { destruct (@last_state N W slack eps crit dsvd wt thr 1 mx undef Hslack (@col_thin N) (@col_val N) Hmx hs field_sites 1 1 1 1 0 1 ltac:(cbn; lia) ltac:(cbn; lia) F Of HC) with (j := 1) (s := s2) (Es := [E1; E2]) as (_ & _ & _ & _ & Q & _); auto. }
      rewrite EN, D2. rewrite D2 in NS. pose proof (@energy_low b b' Sb Sb') as Q. rewrite NS in Q. exact Q.
  Qed.
End Field.
