(** Three sites of dimension one: a run of one sweep from a random chain reports an energy that is not that of the chain. *)
From Verif Require Import Base Ring Index SpecIndex Dense IndexProofs BTensor BTensorArith Bcast Tensordot SpecTensordot Chain SpecChain ChainProofs ChainThms ChainInst ChainEnd
  SpecMove SpecSvd SvdDense SvdEx MoveOc MoveProofs MoveInst Truncate SpecTruncate TruncateProofs BSvd BTrunc Num Lanczos SpecLanczos LanczosVec LanczosProofs SiteUpdate SpecSiteUpdate ChainNorm ChainEnergy SiteUpdateProofs SiteUpdateThms
  Dmrg DmrgProofs DmrgRun SpecDmrgRun DmrgRunProofs DmrgRunThms DmrgFree DmrgFreeThms DmrgRunMain EigenUpdate EigenStep RandDmrg SpecRandDmrg RandDmrgThms.
Set Implicit Arguments.

Section Three.
  Variable N : numeric.
  Add Ring Rr : (ring_th N).
  Notation t := (dense N).
  Notation idk := (fun k : nat => k).
  Notation nn x := (n_leb N rz x = true).
  Notation l := (@d_full N [1; 1; 1] ro).
  Notation c := (n_inv N (two N)).
  Notation c2 := (rmul c c).
  Notation c4 := (rmul c2 c2).
  Notation c8 := (rmul c4 c4).
  Definition three_op (g : N) : t := mkD [1; 1; 1; 1] (fun _ => g).
  Definition three_ham : list t := [three_op (ropp ro); three_op ro; three_op ro].
  Notation hs := three_ham.
  Definition half_draw (i : nat) (j : list nat) : N := c.
  Notation P0 := [0; 0; 0; 0].
  Notation sh := [1; 1; 1; 1].
  Notation val A := (dv A [0; 0; 0]).
  Notation sq A := (rmul (rconj (val A)) (val A)).

  Lemma half2 : radd c c = ro.
  Proof. rewrite <- (n_inv_ok N (two_neq N)). unfold two. ring. Qed.
  Lemma half_nn : nn c.
  Proof. apply nn_inv; [apply n_nn_add; apply nn1|apply two_neq]. Qed.
  Lemma half_conj : rconj c = c.
  Proof. apply n_nn_conj, half_nn. Qed.
  Lemma four : rmul (two N) (rmul (two N) c2) = ro.
  Proof. transitivity (rmul (radd c c) (radd c c)); [unfold two; ring|rewrite half2; ring]. Qed.
  Lemma one_c2 : rsub ro c2 = rmul (radd (two N) ro) c2.
  Proof. rewrite <- four at 1. unfold rsub, two. ring. Qed.
  Lemma nn_two : nn (two N).
  Proof. apply n_nn_add; apply nn1. Qed.
  Lemma one_c4 : rsub ro c4 = rmul (radd ro c2) (rmul (radd (two N) ro) c2).
  Proof. rewrite <- one_c2. unfold rsub. ring. Qed.
  Lemma nn_c2 : nn c2. Proof. apply n_nn_mul; apply half_nn. Qed.
  Lemma nn_3c2 : nn (rmul (radd (two N) ro) c2).
  Proof. apply n_nn_mul; [apply n_nn_add; [apply nn_two|apply nn1]|apply nn_c2]. Qed.
  Lemma nn_1c4 : nn (rsub ro c4).
  Proof. rewrite one_c4. apply n_nn_mul; [apply n_nn_add; [apply nn1|apply nn_c2]|apply nn_3c2]. Qed.
  (** The bounds on [eps]. *)
  Lemma bound0 eps : le N eps c8 -> le N eps (rmul c4 (rsub ro c4)).
  Proof.
    intros H. apply le_trans with c8; [exact H|]. apply le_nn. rewrite one_c4. replace (rsub _ c8) with (rmul (rmul c4 c2) (radd (radd (two N) ro) (rmul (two N) c2))); [repeat first [apply n_nn_mul | apply n_nn_add]; first [apply nn1 | apply half_nn]|].
    transitivity (rmul (rmul c4 c2) (radd (rmul (radd ro c2) (radd (two N) ro)) (ropp c2))); [unfold two; ring|unfold rsub; ring].
  Qed.
  Lemma bound1 eps : le N eps c8 -> le N eps (rmul c (rsub ro c2)).
  Proof.
    intros H. apply le_trans with (rmul c4 (rsub ro c4)); [apply bound0, H|]. apply le_nn. replace (rsub _ _) with (rmul (rmul c (rsub ro c2)) (rsub ro (rmul (rmul c c2) (radd ro c2)))) by (unfold rsub; ring).
    apply n_nn_mul; [apply n_nn_mul; [apply half_nn|rewrite one_c2; apply nn_3c2]|].
    replace (rsub ro _) with (radd (rmul c (rsub ro c4)) (rmul c (rsub ro c2))).
    - apply n_nn_add; apply n_nn_mul; try apply half_nn; [apply nn_1c4|rewrite one_c2; apply nn_3c2].
    - transitivity (rsub (radd c c) (rmul (rmul c c2) (radd ro c2))); [unfold rsub; ring|rewrite half2; reflexivity].
  Qed.

  Lemma only_index i : in_range sh i = true -> i = P0.
  Proof. intros Hi. apply in_range4 in Hi as (i0 & i1 & i2 & i3 & -> & H0 & H1 & H2 & H3). assert (i0 = 0) by lia. assert (i1 = 0) by lia. assert (i2 = 0) by lia. assert (i3 = 0) by lia. subst. reflexivity. Qed.
  Lemma sum_one (f : list nat -> N) : sumf N f (idxs sh) = f P0.
  Proof. cbn [idxs seq flat_map map app]. rewrite !sumf_cons, !sumf_nil. ring. Qed.
  Notation one A := (dsh A = [1; 1; 1]).
  Ltac red3 := cbn [sumf seq map fold_right size nth idxs flat_map app amp op_amp dsh dv d_full three_op]; cbn; cbv beta iota delta [Nat.eqb].
  Section Values.
    Variables A B C : t.
    Hypothesis SA : one A. Hypothesis SB : one B. Hypothesis SC : one C.
    Lemma pair3 : pair_amp A B P0 = rmul (val A) (val B).
    Proof. unfold pair_amp. cbn [nth amp]. unfold size. rewrite SA, SB. red3. ring. Qed.
    Lemma norm3 : chain_norm [A; B; C] 1 1 = rmul (rmul (sq A) (sq B)) (sq C).
    Proof. unfold chain_norm, configs. cbn [map amp]. unfold size. rewrite SA, SB, SC. red3. rewrite !rconj_add, !rconj_mul, !rconj_add, !rconj_mul, !rconj_add, !rconj_mul, ?conj0, ?conj1. ring. Qed.
    Lemma energy3 : chain_energy hs l l [A; B; C] = ropp (chain_norm [A; B; C] 1 1).
    Proof. rewrite norm3. unfold chain_energy, expectation, element, configs. cbn [map amp op_amp]. unfold size. rewrite SA, SB, SC. red3. rewrite !rconj_add, !rconj_mul, !rconj_add, !rconj_mul, !rconj_add, !rconj_mul, ?conj0, ?conj1. ring. Qed.
    Lemma local0 : local_matrix [] [] (three_op (ropp ro)) (three_op ro) [C] [three_op ro] l l P0 P0 = ropp (sq C).
    Proof. unfold local_matrix, left_part, right_part, element, configs. cbn [map amp op_amp]. unfold size. rewrite SC. red3. rewrite ?rconj_add, ?rconj_mul, ?conj0, ?conj1. ring. Qed.
    Lemma local1 : local_matrix [A] [three_op (ropp ro)] (three_op ro) (three_op ro) [] [] l l P0 P0 = ropp (sq A).
    Proof. unfold local_matrix, left_part, right_part, element, configs. cbn [map amp op_amp]. unfold size. rewrite SA. red3. rewrite ?rconj_add, ?rconj_mul, ?conj0, ?conj1. ring. Qed.
    Lemma left3 : left_isometry A -> sq A = ro.
    Proof. intros H. specialize (H 0 0). unfold size in H. rewrite SA in H. cbn in H. change (0 =? 0) with true in H; cbv iota in H. rewrite <- (H (le_n 1) (le_n 1)). ring. Qed.
    Lemma fit3 : mps_fit (@dsh N) idk [A; B; C] 1 1.
    Proof. exists 1, 1. split; [exact SA|]. exists 1, 1. split; [exact SB|]. exists 1, 1. split; [exact SC|reflexivity]. Qed.
    Lemma ofit3 : mpo_fit (@dsh N) idk hs [A; B; C] [A; B; C] 1 1.
    Proof. unfold hs. do 3 (exists 1, 1, 1; rewrite ?SA, ?SB, ?SC; split; [reflexivity|]; split; [reflexivity|]; split; [reflexivity|]). reflexivity. Qed.
  End Values.
  Lemma herm3 : hermitian_chain hs l l [1; 1; 1].
  Proof.
    intros x s x' y s' y' Hs Hs' Hx Hy Hx' Hy'. assert (x = 0) by (cbn in Hx; lia). assert (y = 0) by (cbn in Hy; lia). assert (x' = 0) by (cbn in Hx'; lia). assert (y' = 0) by (cbn in Hy'; lia). subst.
    destruct s as [|s1 [|s2 [|s3 [|? ?]]]]; try (cbn in Hs; rewrite ?andb_false_r in Hs; discriminate). destruct s' as [|s1' [|s2' [|s3' [|? ?]]]]; try (cbn in Hs'; rewrite ?andb_false_r in Hs'; discriminate).
    unfold operator. red3. repeat rewrite ?rconj_add, ?rconj_mul, ?conj_opp, ?conj0, ?conj1. ring.
  Qed.
  Lemma hfit3 : ham_fit hs [1; 1; 1] 1 1.
  Proof. exists 1. split; [reflexivity|]. exists 1. split; [reflexivity|]. exists 1. split; reflexivity. Qed.
End Three.

Section Run.
  Variable N : numeric.
  Context {W : weights}.
  Add Ring Rr2 : (ring_th N).
  Notation t := (dense N).
  Notation l := (@d_full N [1; 1; 1] ro).
  Notation c := (n_inv N (two N)).
  Notation c2 := (rmul c c).
  Notation c4 := (rmul c2 c2).
  Notation c8 := (rmul c4 c4).
  Notation hs := (three_ham N).
  Notation P0 := [0; 0; 0; 0].
  Notation sh := [1; 1; 1; 1].
  Notation val A := (dv A [0; 0; 0]).
  Notation sq A := (rmul (rconj (val A)) (val A)).
  Notation one A := (dsh A = [1; 1; 1]).
  Variables (slack : nat) (eps e_init crit : N) (dsvd : t -> t * t * t) (wt : N -> W) (thr : W) (mx : Z) (undef : t).
  Hypothesis Hslack : 0 < slack.
  Hypothesis H_thin : forall M, (exists m n, dsh M = [m; n]) -> thin M (dsvd M) /\ real_entries (snd (fst (dsvd M))).
  Hypothesis H_val : forall M, (exists m n, dsh M = [m; n]) -> descending (snd (fst (dsvd M))).
  Hypothesis H_iso : forall M, dsh M = [1; 1] -> isometries M (dsvd M).
  Hypothesis P : le N rz eps. Hypothesis Z : eps <> rz. Hypothesis O : le N eps c8.
  Hypothesis Hmx : (1 <= 1 <= mx)%Z.

  Lemma good3 A B C p : one A -> one B -> one C -> good eps dsvd hs l l p [A; B; C].
  Proof.
    intros SA SB SC. assert (AL : forall X, In X [A; B; C] -> one X) by (intros X [<-|[<-|[<-|[]]]]; assumption). pose proof (@fit3 N A B C SA SB SC) as F. pose proof (@ofit3 N A B C SA SB SC) as Of. assert (HC : hermitian_chain hs l l (map (@size N 1) [A; B; C])) by (cbn [map]; unfold size; rewrite SA, SB, SC; apply herm3).
    split.
    - intros pre a a' post hpre h h' hpost Le Re He s E U M AT EL ER EH ES EU CM. destruct AT as (Es & Eh & L1 & L2). rewrite Es in F, Of, HC, AL. rewrite Eh in Of, HC.
      assert (Sa : one a) by (apply AL, in_or_app; right; left; reflexivity). assert (Sa' : one a') by (apply AL, in_or_app; right; right; left; reflexivity).
      destruct (@chain_parts N W eps dsvd wt H_thin H_val pre a a' post hpre h h' hpost 1 1 1 1 1 1 1 1 1) as (Fl & Fr & q & r & q' & Ol & Or & Sh & Sh'); try assumption; [congruence|].
      rewrite (@chain_sizes N pre post 1 1 1 1 a a' 1 Sa Sa') in HC.
      pose proof (@env_fits N pre post hpre hpost h h' l l 1 1 1 1 1 1 1 1 q r q' eq_refl eq_refl Fl Fr Ol Or Sh Sh' Le He Re EL ER EH) as FT.
      pose proof (@heff_hermitian N pre post hpre hpost h h' l l 1 1 1 1 1 1 1 1 q r q' eq_refl eq_refl Fl Fr Ol Or Sh Sh' Le He Re EL ER EH HC) as HM.
      destruct (@merge_ok N a a' 1 1 1 1 1 Sa Sa') as (s' & Es' & Ss & _). rewrite ES in Es'. injection Es' as <-.
      destruct (@update_run N Le He Re 1 1 1 1 FT eps s Ss HM) as (_ & _ & _ & _ & _ & _ & _ & _ & _ & _ & _ & Et' & U' & EU' & _ & _ & SU & _).
      rewrite EU in EU'. injection EU' as <- <-. apply H_iso. destruct CM as [CM _]. rewrite SU in CM. exact CM.
    - intros k (pre & a & a' & post & E & L1 & ->). rewrite E in AL. unfold size. rewrite (AL a), (AL a') by (apply in_or_app; right; cbn; auto). cbn. lia.
  Qed.
  Lemma root_le z X : n_leb N rz z = true -> rmul z z = X -> n_leb N rz X = true -> le N eps z -> le N eps (n_sqrt N X).
  Proof. intros Hz E HX H. replace (n_sqrt N X) with z; [exact H|]. apply root_unique; [exact Hz|apply n_sqrt_nn, HX|]. rewrite n_sqrt_sq by exact HX. exact E. Qed.
  (** A pair of the chain is an eigenvector. *)
  Lemma eigen3 A B C p h0 w z : one A -> one B -> one C ->
    (p = 0 /\ h0 = ropp (sq C) /\ w = rmul (sq A) (sq B) \/ p = 1 /\ h0 = ropp (sq A) /\ w = rmul (sq B) (sq C)) ->
    w <> rz -> n_leb N rz z = true -> rmul z z = rmul (rmul (rmul h0 (rsub ro w)) (rmul h0 (rsub ro w))) w -> le N eps z -> eigen_pair eps hs l l h0 [A; B; C] p.
  Proof.
    intros SA SB SC HP W0 Hz Ez HE pre a a' post hpre h h' hpost (Es & Eh & L1 & L2).
    assert (Q : sprod sh (pair_amp a a') (pair_amp a a') = w /\ local_matrix pre hpre h h' post hpost l l P0 P0 = h0 /\ one a /\ one a').
    { unfold sprod. rewrite sum_one. destruct HP as [(-> & -> & ->) | (-> & -> & ->)].
      - destruct pre; [|discriminate]. destruct hpre; [|discriminate]. unfold three_ham in Eh. injection Es as <- <- <-. injection Eh as <- <- <-. rewrite pair3, local0 by assumption. repeat split; auto. rewrite rconj_mul. ring.
      - destruct pre as [|? [|? ?]]; try discriminate. destruct hpre as [|? [|? ?]]; try discriminate. unfold three_ham in Eh. injection Es as <- <- <- <-. injection Eh as <- <- <- <-. rewrite pair3, local1 by assumption. repeat split; auto. rewrite rconj_mul. ring. }
    destruct Q as (Q1 & Q2 & Sa & Sa'). unfold size. rewrite Sa, Sa'. cbn [nth]. rewrite Q1. split; [|split; [exact W0|]].
    - intros i Hi. apply only_index in Hi as ->. unfold apply. rewrite sum_one, Q2. reflexivity.
    - apply root_le with z; auto. rewrite <- Ez. apply n_nn_mul; exact Hz.
  Qed.

  Notation st0 env := (mkDst [mkD [1; 1; 1] (half_draw N 0); mkD [1; 1; 1] (half_draw N 1); mkD [1; 1; 1] (half_draw N 2)] env 0%Z).
  Definition three_sites : list t := [mkD [1; 1; 1] (half_draw N 0); mkD [1; 1; 1] (half_draw N 1); mkD [1; 1; 1] (half_draw N 2)].
  Notation ups hs2 := (t_updates eps dsvd wt thr 1 mx hs hs2).
  Notation base := (base hs l l 1 1 1 1 [1; 1; 1]).
  Lemma two_steps env hs2 : compute_2sites_hamil t_tdot t_perm hs = Ok hs2 -> base 0 (mkDst three_sites env 0) ->
    exists s1 E1 s2 E2, ups hs2 1 (mkDst three_sites env 0) 1 1 = Some (Ok (s1, (-1)%Z, [E1])) /\ ups hs2 2 (mkDst three_sites env 0) 1 1 = Some (Ok (s2, 1%Z, [E1; E2])) /\
      (exists A B C, d_sites s1 = [A; B; C] /\ one A /\ one B /\ one C) /\ (exists A B C, d_sites s2 = [A; B; C] /\ one A /\ one B /\ one C) /\
      d_oc s1 = 1%Z /\ d_oc s2 = 0%Z /\ dsh E2 = [] /\ dv E2 [] <> ropp ro.
  Proof.
    intros E2 I0.
    destruct (@eigen_step N W eps dsvd wt thr 1 mx H_thin H_val Hmx hs hs2 l l 1 1 1 1 [1; 1; 1] eq_refl eq_refl E2 (@herm3 N) P Z 0 (mkDst three_sites env 0) 1 1 (ropp c2) I0) as (s1 & Et1 & b & b' & U1 & I1 & D1 & _ & _ & H1).
    { split; [reflexivity|]. split; [auto|]. cbn. lia. }
    { apply good3; reflexivity. }
    { rewrite conj_opp, rconj_mul, half_conj. reflexivity. }
    { apply eigen3 with (w := c4) (z := rmul c4 (rsub ro c4)); try reflexivity.
      - left. split; [reflexivity|]. cbn [dv]. unfold half_draw. rewrite half_conj. split; ring.
      - intros Q. apply (n_one N). rewrite <- (@four N). assert (Q' : c2 = rz) by (apply mul_zero in Q as [Q|Q]; exact Q). rewrite Q'. ring.
      - apply n_nn_mul; [apply n_nn_mul; apply nn_c2|apply nn_1c4].
      - ring.
      - apply bound0, O. }
    destruct (H1 _ _ eq_refl eq_refl) as (k & Hk & Sb & Sb' & NB & IB & _). change (sprod sh (pair_amp b b') (pair_amp b b') = ro) in NB. unfold size in Hk, Sb, Sb'. cbn in Hk, Sb, Sb'. change (1 =? 1)%Z with true in IB. cbv iota in IB. assert (k = 1) by lia. subst k.
    cbn [d_sites three_sites firstn skipn app Nat.add] in D1. set (C := mkD [1; 1; 1] (half_draw N 2)) in *.
    assert (Qb : sq b = ro) by (apply left3; assumption). assert (Qb' : sq b' = ro).
    { unfold sprod in NB. rewrite sum_one, pair3 in NB by assumption. rewrite rconj_mul in NB. transitivity (rmul (sq b) (sq b')); [rewrite Qb; ring|rewrite <- NB; ring]. }
    destruct (@eigen_step N W eps dsvd wt thr 1 mx H_thin H_val Hmx hs hs2 l l 1 1 1 1 [1; 1; 1] eq_refl eq_refl E2 (@herm3 N) P Z 1 s1 (-1) 0 (ropp ro) I1) as (s2 & Et2 & d & d' & U2 & I2 & D2 & SE & NE & H2).
    { split; [reflexivity|]. split; [auto|]. cbn. lia. }
    { rewrite D1. apply good3; auto. }
    { rewrite conj_opp, conj1. reflexivity. }
    { rewrite D1. apply eigen3 with (w := c2) (z := rmul c (rsub ro c2)); try reflexivity; try assumption.
      - right. split; [reflexivity|]. rewrite Qb, Qb'. unfold C, half_draw. cbn [dv]. rewrite half_conj. split; ring.
      - intros Q. apply (n_one N). rewrite <- (@four N), Q. ring.
      - apply n_nn_mul; [apply half_nn|rewrite one_c2; apply nn_3c2].
      - ring.
      - apply bound1, O. }
    rewrite D1 in D2, H2. destruct (H2 _ _ eq_refl eq_refl) as (k & Hk2 & Sd & Sd' & _). unfold size in Hk2, Sd, Sd'. rewrite Sb' in Hk2, Sd. cbn in Hk2, Sd, Sd'. assert (k = 1) by lia. subst k.
    cbn [firstn skipn app Nat.add] in D2. pose proof I1 as (O1 & _). pose proof I2 as (O2 & _).
    exists s1, Et1, s2, Et2. assert (UU1 : ups hs2 1 (mkDst three_sites env 0) 1 1 = Some (Ok (s1, (-1)%Z, [Et1]))).
    { unfold t_updates. cbn [updates]. rewrite U1. cbn [obind]. rewrite O1. reflexivity. }
    split; [exact UU1|]. split.
    { unfold t_updates. cbn [updates]. rewrite U1. cbn [obind]. rewrite O1. cbn [Z.of_nat Z.eqb orb Pos.of_succ_nat Pos.eqb Z.mul Z.sub Z.add Z.opp Z.pos_sub Pos.mul Pos.add Pos.pred_double]. rewrite U2. cbn [obind]. rewrite O2. reflexivity. }
    split; [exists b, b', C; auto|]. split; [exists b, d, d'; auto|]. split; [exact O1|]. split; [exact O2|]. auto.
  Qed.
  Notation reach := (reached slack eps dsvd wt thr 1 mx undef hs three_sites 0).
  Theorem three_run : exists E sites', t_dmrg_random (half_draw N) slack eps e_init crit dsvd wt thr 1 mx undef 1 hs = Some (Ok (E, sites', 0%Z)) /\ chain_norm sites' 1 1 = ro /\ canonical sites' 0 /\
    chain_energy hs l l sites' = ropp ro /\ dv E [] <> chain_energy hs l l sites'.
  Proof.
    assert (ES : random_MPS_hamil (half_draw N) 1 hs = Ok three_sites) by reflexivity.
    assert (F : mps_fit (@dsh N) (fun k => k) three_sites 1 1) by (apply fit3; reflexivity). assert (Of : mpo_fit (@dsh N) (fun k => k) hs three_sites three_sites 1 1) by (apply ofit3; reflexivity).
    assert (HC : hermitian_chain hs l l (map (@size N 1) three_sites)) by apply herm3.
    assert (N0 : chain_norm three_sites 1 1 = rmul c4 c2). { unfold three_sites. rewrite norm3 by reflexivity. cbn [dv]. unfold half_draw. rewrite half_conj. reflexivity. }
    assert (NZ : chain_norm three_sites 1 1 <> rz).
    { rewrite N0. intros Q. apply (n_one N). rewrite <- (@four N). assert (Q' : c2 = rz) by (apply mul_zero in Q as [Q|Q]; [apply mul_zero in Q as [Q|Q]|]; exact Q). rewrite Q'. ring. }
    assert (NE : le N eps (chain_norm three_sites 1 1)).
    { rewrite N0. apply le_trans with c8; [exact O|]. apply le_nn. replace (rsub _ c8) with (rmul (rmul c4 c2) (rsub ro c2)) by (unfold rsub; ring). rewrite one_c2. apply n_nn_mul; [apply n_nn_mul; [apply n_nn_mul; apply nn_c2|apply nn_c2]|apply nn_3c2]. }
    destruct (@start_base N W slack eps dsvd wt undef Hslack H_thin H_val hs three_sites 1 1 1 1 0 1 ltac:(cbn; lia) ltac:(cbn; lia) F Of HC) as (env & hs2 & G1 & G2 & I0).
    destruct (@two_steps env hs2 G2 I0) as (s1 & E1 & s2 & E2 & U1 & U2 & (A & B & C & D1 & SA & SB & SC) & (A2 & B2 & C2 & D2 & SA2 & SB2 & SC2) & O1 & O2 & SE & NE2).
    assert (RS : forall k s Es, k <= 2 -> reach k s Es -> exists X Y V, d_sites s = [X; Y; V] /\ one X /\ one Y /\ one V).
    { intros k s Es Hk (env' & hs2' & st & G1' & G2' & U). rewrite G1 in G1'. rewrite G2 in G2'. injection G1' as <-. injection G2' as <-. destruct k as [|[|[|k]]]; [| | |lia].
      - injection U as <- _ _. cbn [d_sites]. unfold three_sites. eauto 10.
      - change (ups hs2 1 (mkDst three_sites env 0) 1 1 = Some (Ok (s, st, Es))) in U. rewrite U1 in U. injection U as <- _ _. exists A, B, C. auto.
      - change (ups hs2 2 (mkDst three_sites env 0) 1 1 = Some (Ok (s, st, Es))) in U. rewrite U2 in U. injection U as <- _ _. exists A2, B2, C2. auto. }
    assert (R2 : reach 2 s2 [E1; E2]) by (exists env, hs2, 1%Z; auto).
    assert (HG : forall k s Es p, k < 1 * sweep_size (length three_sites) -> reach k s Es -> d_oc s = Z.of_nat p -> good eps dsvd hs l l p (d_sites s)).
    { intros k s Es p Hk R _. destruct (RS k s Es) as (X & Y & V & -> & SX & SY & SV); [change (k < 2) in Hk; lia|exact R|]. apply (@good3 X Y V p SX SY SV). }
    assert (HM : forall k s Es a Mx, k <= 1 * sweep_size (length three_sites) -> reach k s Es -> d_oc s = 0%Z -> nth_error (d_sites s) 1 = Some a -> cut_matrix 1 a Mx -> isometries Mx (dsvd Mx)).
    { intros k s Es a Mx Hk R _ Na CM. destruct (RS k s Es) as (X & Y & V & Q & SX & SY & SV); [exact Hk|exact R|]. rewrite Q in Na. injection Na as <-. apply H_iso. destruct CM as [CM _]. rewrite SY in CM. exact CM. }
    destruct (@finish N W slack eps crit dsvd wt thr 1 mx undef Hslack H_thin H_val Hmx hs three_sites 1 1 1 1 0 1 ltac:(cbn; lia) ltac:(cbn; lia) F Of HC) with (j := 1) (s := s2) (Es := [E1; E2]) (E := E2) as (s' & EF & Fs & PS & NN & CC & EN); auto.
    assert (EN1 : chain_energy hs l l s' = ropp ro).
    { rewrite EN, D2, energy3 by assumption. f_equal. rewrite <- D2.
      destruct (@last_state N W slack eps crit dsvd wt thr 1 mx undef Hslack H_thin H_val Hmx hs three_sites 1 1 1 1 0 1 ltac:(cbn; lia) ltac:(cbn; lia) F Of HC) with (j := 1) (s := s2) (Es := [E1; E2]) as (_ & _ & _ & _ & Q & _); auto. }
    exists E2, s'. split; [|split; [exact NN|]; split; [exact CC|]; split; [exact EN1|rewrite EN1; exact NE2]].
    unfold t_dmrg_random. change (Z.to_nat 1) with 1. rewrite ES. cbn [obind]. unfold t_dmrg. rewrite G1. cbn [obind]. rewrite G2. cbn [obind]. unfold t_dmrg_impl.
    rewrite (@norm_ok N W slack crit dsvd wt undef Hslack H_thin H_val hs three_sites 1 1 1 1 0 ltac:(cbn; lia) ltac:(cbn; lia) F Of). cbn [obind].
    destruct (reqb (chain_norm three_sites 1 1) rz) eqn:QZ; [apply reqb_spec in QZ; contradiction|]. unfold le in NE. rewrite NE. cbn [orb negb]. cbn [sweeps].
    change (updates (compute_left_env t_tdot t_conj) (compute_right_env t_tdot t_conj) (t_site_update eps dsvd wt thr 1 mx) hs hs2 (sweep_size (length three_sites)) (mkDst three_sites env (Z.of_nat (start_pos (length three_sites) 0))) (start_step (length three_sites) 0) (Z.of_nat (length three_sites) - 2)) with (ups hs2 2 (mkDst three_sites env 0) 1 1).
    rewrite U2. cbn [obind last].
    assert (CV : exists b, t_converged crit (mkD [] (fun _ => e_init)) E2 = Ok b) by (unfold t_converged, t_zip, t_item; rewrite SE; cbn; change (1 =? 1) with true; cbn; eauto).
    destruct CV as (b & ->). cbn [obind]. cbv zeta in EF. destruct b; cbn [obind]; exact EF.
  Qed.
  Theorem three_refuted : exists (draw : nat -> list nat -> N) (hs : list t), ham_fit hs [1; 1; 1] 1 1 /\ hermitian_chain hs l l [1; 1; 1] /\ (forall i j, le N rz (draw i j) /\ le N (draw i j) ro /\ draw i j <> ro) /\
    exists E sites', t_dmrg_random draw slack eps e_init crit dsvd wt thr 1 mx undef 1 hs = Some (Ok (E, sites', 0%Z)) /\ chain_norm sites' 1 1 = ro /\ canonical sites' 0 /\ chain_energy hs l l sites' = ropp ro /\ dv E [] <> chain_energy hs l l sites'.
  Proof.
    exists (half_draw N), hs. split; [apply hfit3|]. split; [apply herm3|]. split; [|exact three_run]. intros i j. unfold half_draw. pose proof (half2 N) as H2. split; [apply half_nn|]. split.
    - apply le_nn. rewrite <- H2. replace (rsub _ c) with c by (unfold rsub; ring). apply half_nn.
    - intros Q. rewrite Q in H2. apply (n_one N). transitivity (radd (radd (ro : N) ro) (ropp ro)); [ring|rewrite H2; ring].
  Qed.
End Run.
