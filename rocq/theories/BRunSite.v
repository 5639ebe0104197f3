(** Selection rules of environments and two-site Hamiltonians, and what an update of two block sites that returns leaves unchanged. *)
From Verif Require Import Base Quantity QuantityProofs FlatMap SpecFlatMap FlatMapProofs FlatMapThms Ring Index SpecIndex IndexProofs Dense BTensor SpecBTensor LegsProofs BTensorProofs BTensorThms
  BTensorArith SpecArith ArithProofs ArithThms Tensordot SpecTensordot TensordotProofs TensordotThms Bcast SpecBcast BcastProofs BcastThms BcastMain View Chain SpecChain ChainProofs ChainThms ChainInst ChainEnd
  ModelsBlockProofs SpecMove SpecEdges SpecSector SpecSvd BSvd SvdDense MoveOc MoveProofs MoveInst Truncate SpecTruncate TruncateProofs BTrunc SpecBTrunc BTruncProofs BTruncThms BTruncMain CoalesceProofs
  Num Eig2 SpecEig2 Eig2Proofs Lanczos SpecLanczos LanczosVec LanczosProofs BLanczos SpecBLanczos BLanczosProofs BLanczosThms BLanczosMiss BLanczosMain
  SiteUpdate SpecSiteUpdate ChainNorm ChainEnergy SiteUpdateProofs SiteUpdateThms BSiteUpdate SpecBSiteUpdate BSvdCut BSiteUpdateThms BSiteChain SpecBDmrgRun BRunStep.
Set Implicit Arguments.

Section Rules.
  Variable G : abgroup.
  Variable N : numeric.
  Variable imax : nat.
  Notation bt := (btensor G N).
  Notation tdot := (@tensordot G N imax).
  Lemma make_rule (T T' : bt) : make T = Ok T' -> T' = T.
  Proof. unfold make. destruct (check_tensor T) as [[|]| |]; cbn [rbind]; congruence. Qed.
  Lemma tdot_rule (A B C : bt) d1 d2 : tdot A B d1 d2 = Ok C -> b_rule C = qop G (b_rule A) (b_rule B).
  Proof.
    unfold tensordot. destruct (compute_tdot_shape A B d1 d2) as [[[p1 p2] sbd]| |]; cbn [rbind]; try discriminate. destruct (permute_bl _ p1 _ _); cbn [rbind]; try discriminate. destruct (permute_bl _ _ p2 _); cbn [rbind]; try discriminate.
    destruct (make _) as [out| |] eqn:E; cbn [rbind]; try discriminate. apply make_rule in E. destruct (outer_loop _ _ _ _ _ _ _); cbn [rbind]; try discriminate. intros [= <-]. cbn. rewrite E. reflexivity.
  Qed.
  Lemma perm_rule p (A C : bt) : b_perm p A = Ok C -> b_rule C = b_rule A.
  Proof.
    unfold b_perm, permute. destruct (negb _); [discriminate|]. destruct (rmapM _ _); cbn [rbind]; try discriminate. destruct (rmapM _ (b_blocks A)); cbn [rbind]; try discriminate. destruct (rmapM _ _); cbn [rbind]; try discriminate.
    intros E. apply make_rule in E. rewrite E. reflexivity.
  Qed.
  Lemma left_env_rule h a l l' : compute_left_env tdot (@conj G N) h a l = Ok l' -> b_rule l' = qop G (b_rule l) (b_rule h).
  Proof.
    unfold compute_left_env, left_step. destruct (tdot l a _ _) as [x| |] eqn:E1; cbn [rbind]; try discriminate. destruct (tdot x h _ _) as [y| |] eqn:E2; cbn [rbind]; try discriminate. intros E3.
    apply tdot_rule in E1, E2, E3. rewrite E3, E2, E1. change (b_rule (conj a)) with (qinv G (b_rule a)). rewrite <- !qop_assoc. f_equal. rewrite (qop_comm G (b_rule h)), !qop_assoc, qop_inv_r. apply qop_e_l.
  Qed.
  Lemma right_env_rule h a r r' : compute_right_env tdot (@conj G N) h a r = Ok r' -> b_rule r' = qop G (b_rule h) (b_rule r).
  Proof.
    unfold compute_right_env. destruct (tdot r a _ _) as [x| |] eqn:E1; cbn [rbind]; try discriminate. destruct (tdot x h _ _) as [y| |] eqn:E2; cbn [rbind]; try discriminate. intros E3.
    apply tdot_rule in E1, E2, E3. rewrite E3, E2, E1. change (b_rule (conj a)) with (qinv G (b_rule a)). rewrite (qop_comm G (b_rule h)), <- !qop_assoc. f_equal. rewrite (qop_comm G (b_rule h)), !qop_assoc, qop_inv_r. apply qop_e_l.
  Qed.
  Notation rules := (fun l : list bt => qprod G (map (@b_rule G N) l)).
  Lemma left_envs_rule hs : forall sites l L, left_envs tdot (@conj G N) hs sites l = Ok L -> b_rule L = qop G (b_rule l) (rules hs).
  Proof.
    induction hs as [|h hs IH]; intros [|a sites] l L; cbn [left_envs]; try discriminate; [intros [= <-]; cbn; rewrite qop_e_r; reflexivity|].
    destruct (compute_left_env _ _ h a l) as [l'| |] eqn:E; cbn [rbind]; try discriminate. intros H. apply IH in H. apply left_env_rule in E. rewrite H, E, <- qop_assoc. reflexivity.
  Qed.
  Lemma right_envs_rule hs : forall sites r R, right_envs tdot (@conj G N) hs sites r = Ok R -> b_rule R = qop G (rules hs) (b_rule r).
  Proof.
    induction hs as [|h hs IH]; intros [|a sites] r R; cbn [right_envs]; try discriminate; [intros [= <-]; cbn; rewrite qop_e_l; reflexivity|].
    destruct (right_envs _ _ hs sites r) as [r'| |] eqn:E; cbn [rbind]; try discriminate. intros H. apply IH in E. apply right_env_rule in H. rewrite H, E, qop_assoc. reflexivity.
  Qed.
  Lemma two_rule h h' H : two_sites_hamil tdot b_perm h h' = Ok H -> b_rule H = qop G (b_rule h) (b_rule h').
  Proof. unfold two_sites_hamil. destruct (tdot h h' _ _) as [x| |] eqn:E; cbn [rbind]; try discriminate. intros P. apply perm_rule in P. apply tdot_rule in E. congruence. Qed.
  Lemma qprod_app (l m : list G) : qprod G (l ++ m) = qop G (qprod G l) (qprod G m).
  Proof. induction l as [|x l IH]; [cbn; rewrite qop_e_l; reflexivity|]. change (qop G x (qprod G (l ++ m)) = qop G (qop G x (qprod G l)) (qprod G m)). rewrite IH, qop_assoc. reflexivity. Qed.
  Lemma env_conserving hpre h h' hpost pre post l e L H E : left_envs tdot (@conj G N) hpre pre l = Ok L -> right_envs tdot (@conj G N) hpost post e = Ok E -> two_sites_hamil tdot b_perm h h' = Ok H ->
    qop G (b_rule l) (qop G (rules (hpre ++ [h; h'] ++ hpost)) (b_rule e)) = qe G -> conserving L H E.
  Proof.
    intros EL EE EH Q. apply left_envs_rule in EL. apply right_envs_rule in EE. apply two_rule in EH. unfold conserving. rewrite EL, EE, EH, <- Q. rewrite !map_app, !qprod_app. cbn. rewrite ?qop_e_r, ?qop_assoc. reflexivity.
  Qed.
End Rules.

Section B.
  Variable G : abgroup.
  Variable N : numeric.
  Variable W : weights.
  Variable imax : nat.
  Notation bt := (btensor G N).
  Notation d := (dense N).
  Notation tl := (@blegs G N).
  Notation dual := (@bdual G).
  Notation den := (@stored G N imax).
  Notation bk := (bk0 G).
  Notation bsz := (@bsz G).
  Add Ring Rr' : (ring_th N).
  Notation leg := (list nat * list G)%type.
  Ltac small := cbn; intros; repeat match goal with H : _ \/ _ |- _ => destruct H end; try contradiction; subst; lia.
  Ltac dist := repeat (constructor; [cbn; intuition congruence|]); constructor.

  Lemma well_den (T : bt) : well imax T -> exists D, den T D.
  Proof. intros (V & I). destruct (to_dense_spec V) as (D & _ & F). exists D. split; [exact V|]. split; [exact F|exact I]. Qed.
  Lemma den_well (T : bt) D : den T D -> well imax T. Proof. intros (V & _ & I). split; assumption. Qed.
  Lemma wells_den (l : list bt) : Forall (well imax) l -> exists D, Forall2 den l D.
  Proof. induction 1 as [|T l H HF (D & IH)]; [exists []; constructor|]. destruct (well_den H) as (DT & HT). exists (DT :: D). constructor; assumption. Qed.
  Lemma dens_well (l : list bt) D : Forall2 den l D -> Forall (well imax) l. Proof. induction 1; constructor; [eapply den_well; eauto|assumption]. Qed.
  Lemma not_zero_dense (T : bt) D : den T D -> not_zero T -> exists i, in_range (dsh D) i = true /\ dv D i <> rz.
  Proof.
    intros (V & F & _) ((k, t) & j & He & Hj & Z). cbn [snd] in Hj, Z. pose proof V as (M & HB & HS). destruct (HB k t He) as ((Hr & _) & Sh).
    assert (A : assoc leqb k (b_blocks T) = Some t) by (apply assoc_nodup; [apply sorted_nodup; exact HS|exact He]).
    rewrite Sh in Hj. exists (place (legs T) k j). split.
    - rewrite (proj1 F). apply place_spec; [rewrite (legs_lens M); exact Hr|exact Hj].
    - rewrite (proj2 F) by assumption. unfold bentry. rewrite A. exact Z.
  Qed.

  Variable eps : N.
  Variable gtb : N -> N -> bool.
  Variable lower : N -> N.
  Variable wt : N -> W.
  Variable dsvd : d -> d * d * d.
  Variable thr : W.
  Variables mn mx : Z.
  Hypothesis HO : total_order gtb.
  Hypothesis low : forall x, gtb x rz = true -> gtb x (lower x) = true.
  Hypothesis low0 : lower rz = rz.
  Hypothesis Hmn : (1 <= mn <= mx)%Z.
  Notation vals := (fun M => snd (fst (dsvd M))).
  Hypothesis H_thin : forall M, (exists m n, dsh M = [m; n]) -> thin M (dsvd M) /\ SpecBTrunc.descending gtb (entries (vals M)) /\ forall x, In x (entries (vals M)) -> gtb rz x = false.

  Theorem any_site (fwd : bool) (a a' H L E : bt) (Da Da' DH DL DE : d) (x p k p' x' o o' : leg) Et b b' :
    den a Da -> den a' Da' -> den H DH -> den L DL -> den E DE ->
    tl L = [x; o; dual x] -> tl a = [dual x; p; k] -> tl a' = [dual k; p'; x'] -> tl H = [dual o; p; p'; o'; dual p; dual p'] -> tl E = [dual x'; dual o'; x'] -> conserving L H E ->
    (forall s Et U, merge (tensordot imax) a a' = Ok s -> b_update imax eps s H L E = Ok (Et, U) -> well imax U -> tl U = [dual x; p; p'; x'] ->
      length (fst x) * length (fst p) <= imax /\ (Z.of_nat (bsz p' * bsz x') <= 2 ^ 63)%Z /\ not_zero U /\ forall u v w z, svd_split dsvd U 2 = Ok (u, v, w) -> tidy gtb v z u /\ tidy gtb v z w) ->
    b_site_update imax eps gtb lower wt dsvd thr mn mx fwd a a' H L E = Some (Ok (Et, b, b')) ->
    exists k' DEt Db Db', (sc0 N imax Et DEt /\ den b Db /\ den b' Db') /\ tl b = [dual x; p; k'] /\ tl b' = [dual k'; p'; x'] /\
      b_rule b = qop G (b_rule a) (b_rule a') /\ b_rule b' = qe G.
  Proof.
    intros Ha Ha' HH HL HE TL Ta Ta' TH TE CV HU.
    destruct (@stored_tdot_rule G N imax a a' Da Da' [2] [0] Ha Ha') as (s & ES & TS & HS & RS); try (rewrite ?Ta, ?Ta'; solve [small | dist | reflexivity | cbn; rewrite ?bdual_dual; reflexivity]).
    rewrite Ta, Ta' in TS. change (tl s = [dual x; p; p'; x']) in TS. unfold b_site_update, site_update. fold (merge (tensordot imax) a a') in ES. rewrite ES. cbn [obind].
    destruct (b_update imax eps s H L E) as [[Et' U]| |] eqn:EU; cbn [obind fst snd]; try discriminate.
    destruct (@any_update G N imax L H E DL DH DE x p p' x' o o' HL HH HE TL TH TE CV eps s _ HS TS Et' U EU) as (DEt & DU & SE & A2 & A4 & A5).
    destruct (HU s Et' U ES EU (den_well A2) A4) as (IS & HB & NZ & HTID). pose proof A2 as (VU & FU & IU). destruct (not_zero_dense A2 NZ) as (i0 & Hi0 & NZ0).
    assert (LU : b_rank U = 4) by (rewrite <- (blegs_length (proj1 VU)), A4; reflexivity).
    assert (HNE : nonempty U).
    { intros l Hl. destruct (Nat.eq_dec (sum_list l) 0) as [E0|E0]; [|lia]. exfalso. clear - Hl Hi0 E0 FU. rewrite (proj1 FU) in Hi0. revert Hl Hi0. generalize (legs U). intros LL. revert i0. induction LL as [|c LL IH]; intros [|z i]; cbn; try tauto; try discriminate.
      intros Hl Hi. apply andb_true_iff in Hi as (H1 & H2). apply Nat.ltb_lt in H1. destruct Hl as [->|Hl]; [lia|]. eapply IH; eauto. }
    assert (SM : forall M, sector_matrix 2 U DU M -> exists m n, dsh M = [m; n]) by (intros M (m & n & _ & _ & _ & _ & Q & _); eauto).
    assert (F1 : firstn 2 (tl U) = [dual x; p]) by (rewrite A4; reflexivity). assert (F2 : skipn 2 (tl U) = [p'; x']) by (rewrite A4; reflexivity).
    destruct (@svd_cut_ok G N W gtb lower wt HO dsvd thr mn mx Hmn low low0 U DU 2 i0 VU HNE) as (u & q & v & k' & Du & Dq & Dv & EC & (Vu & Vq & Vv) & (K1 & K2 & K3) & _ & (Tu & Tq & Tv) & (Ru & Rq & Rv) & (Fu & Fq & Fv) & _); try assumption.
    { lia. }
    { intros M HMM. exact (H_thin M (SM M HMM)). }
    { rewrite F2. cbn. rewrite Nat.mul_1_r. exact HB. }
    rewrite F1, F2 in *. cbn [map app] in Tu, Tv.
    assert (IK : length (fst k') <= imax). { unfold sections in K2. cbn in K2. rewrite Nat.mul_1_r in K2. lia. }
    assert (IL : forall l, In l [dual x; p; p'; x'] -> length (fst l) <= imax) by (rewrite <- A4; apply imax_sbd; [apply VU|exact IU]).
    assert (Hu : den u Du). { split; [exact Vu|]. split; [exact Fu|]. apply sbd_imax; [apply Vu|]. rewrite Tu. intros l [<-|[<-|[<-|[]]]]; [apply IL; cbn; auto..|exact IK]. }
    assert (Hv : den v Dv). { split; [exact Vv|]. split; [exact Fv|]. apply sbd_imax; [apply Vv|]. rewrite Tv. intros l [<-|[<-|[<-|[]]]]; [apply (IL p'); cbn; auto|apply (IL x'); cbn; auto|exact IK]. }
    assert (Hq : den q Dq). { split; [exact Vq|]. split; [exact Fq|]. apply sbd_imax; [apply Vq|]. rewrite Tq. intros l [<-|[]]. exact IK. }
    rewrite EC. cbn [obind].
    set (sg := n_sqrt N (sum c < bsz k', rmul (dv Dq [c]) (dv Dq [c]))).
    destruct (reqb sg rz) eqn:Zs.
    { intros Q. exfalso. injection Q as Q. apply reqb_spec in Zs. revert Q. unfold b_unit_norm.
      assert (X : BTensor.item (bt_elementwise (n_sqrt N) (bt_sum (bt_elementwise (fun z => rmul z z) q))) = Ok rz).
      { destruct (@sim_map G N imax (fun z => rmul z z) q Dq Hq) as (Hqq & Tqq & Rqq); [ring|]. pose proof Hqq as (Vqq & Fqq & _). destruct (sum_spec Vqq Fqq) as (Ei & _). revert Ei. unfold bt_sum, BTensor.item, bt_elementwise. cbn [map_blocks with_blocks b_blocks map fst snd].
        unfold d_item. cbn [d_map d_scalar dsh dv]. change (prod_list [] =? 1) with true. cbv iota. intros [= Ei]. f_equal. rewrite Ei. rewrite <- Zs. unfold sg. f_equal. unfold Dense.d_sum.
        assert (SQ : dsh Dq = [bsz k']) by (rewrite (stored_shape Hq), Tq; reflexivity). change (dsh (d_map (fun z : N => rmul z z) Dq)) with (dsh Dq). rewrite ?SQ.         transitivity (sumf N (fun i => rmul (dv Dq i) (dv Dq i)) (idxs [bsz k'])); [reflexivity|]. rewrite sum_idxs1. reflexivity. }
      rewrite X. cbn [rbind]. rewrite (proj2 (reqb_spec N rz rz) eq_refl). cbn [rbind]. destruct fwd; discriminate. }
    assert (Zs' : sg <> rz) by (intros Q; rewrite (proj2 (reqb_spec N _ _) Q) in Zs; discriminate).
    destruct (@unit_ok G N imax q Dq k' sg Hq Tq Rq eq_refl Zs') as (q1 & Dq1 & Eq1 & Hq1 & Tq1 & Rq1 & _). rewrite Eq1. cbn [rbind].
    destruct fwd.
    - destruct (@scale3 G N imax v q1 Dv Dq1 (dual p') (dual x') k' Hv Tv Hq1 Tq1 Rq1) as (vd & Dvd & Evd & Tvd & Hvd & Rvd & _). destruct (@perm3 G N imax vd Dvd (dual p') (dual x') k' Hvd) as (b1 & Db' & Eb & Tb & Hb & Rb & _); [rewrite Tvd; exact Tv|].
      rewrite Evd. cbn [rbind]. rewrite Eb. cbn [rbind]. intros [= <- <- <-]. exists k', DEt, Du, Db'. split; [auto|]. split; [exact Tu|]. split; [rewrite Tb, !bdual_dual; reflexivity|]. split; [rewrite Ru, A5; exact RS|]. rewrite Rb, Rvd, Rv. apply qinv_e.
    - destruct (@scale3 G N imax u q1 Du Dq1 (dual x) p k' Hu Tu Hq1 Tq1 Rq1) as (ud & Dud & Eud & Tud & Hud & Rud & _). destruct (@perm3 G N imax v Dv (dual p') (dual x') k' Hv Tv) as (b1 & Db' & Eb & Tb & Hb & Rb & _).
      rewrite Eud. cbn [rbind]. rewrite Eb. cbn [rbind]. intros [= <- <- <-]. exists k', DEt, Dud, Db'. split; [auto|]. split; [rewrite Tud; exact Tu|]. split; [rewrite Tb, !bdual_dual; reflexivity|]. split; [rewrite Rud, Ru, A5; exact RS|]. rewrite Rb, Rv. apply qinv_e.
  Qed.
End B.
