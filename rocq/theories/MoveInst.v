(** Displacement of the orthogonality centre of chains of dense tensors and of block tensors. *)
From Verif Require Import Base Quantity QuantityProofs Ring Index SpecIndex IndexProofs Dense BTensor SpecBTensor LegsProofs BTensorProofs BTensorThms
  BTensorArith SpecArith ArithProofs ArithThms Tensordot SpecTensordot TensordotProofs TensordotThms View Bcast SpecBcast BcastProofs BcastThms BcastMain Chain SpecChain ChainProofs ChainThms ChainInst
  SpecEdges SpecSector BSvd SpecSvd SvdDense Dmrg MoveOc SpecMove MoveProofs MoveThms.
Set Implicit Arguments.

Section D.
  Variable R : ring.
  Add Ring Rring : (ring_th R).
  Variable dsvd : dense R -> dense R * dense R * dense R.
  Hypothesis H_thin : forall M, (exists m n, dsh M = [m; n]) -> thin M (dsvd M) /\ real_entries (snd (fst (dsvd M))).
  Definition diso (s : nat) (A : dense R) : Prop := forall M, cut_matrix s A M -> isometries M (dsvd M).

  Lemma reshape_dv sh (d : dense R) o o' : prod_list sh = prod_list (dsh d) -> in_range (dsh d) o = true -> rowmajor sh o' = rowmajor (dsh d) o -> dv (d_reshape sh d) o' = dv d o.
  Proof. intros E H H'. cbn [d_reshape dv]. rewrite H', decode_rowmajor by exact H. reflexivity. Qed.
  Lemma pair_in m n i j : i < m -> j < n -> in_range [m; n] [i; j] = true.
  Proof. intros H1 H2. cbn. rewrite !(proj2 (Nat.ltb_lt _ _)) by assumption. reflexivity. Qed.

  Lemma dense_svd (A DA : dense R) l1 l2 : dden A DA -> dsh A = l1 ++ l2 -> (length l1 = 1 /\ l2 <> [] \/ l1 <> [] /\ length l2 = 1) -> (False -> ~ zero_site DA) ->
    exists U d V k DU Dd DV, d_svd dsvd A (length l1) = Ok (U, d, V) /\ dsh U = l1 ++ [k] /\ dsh V = map (fun k => k) l2 ++ [k] /\ dden U DU /\ dden V DV /\
      tt = tt /\ tt = tt /\ tensor_factors (map (fun k => k) l1) (map (fun k => k) l2) k DA DU Dd DV /\ real_entries Dd /\
      (diso (length l1) A -> tensor_orthonormal (map (fun k => k) l1) k DU /\ tensor_orthonormal (map (fun k => k) l2) k DV) /\
      (forall X DX l, dden X DX -> dsh X = l :: [k] -> exists Y DY, t_zip false rmul X d = Ok Y /\ dsh Y = dsh X /\ dden Y DY /\ tt = tt /\
         forall i c, i < l -> c < k -> dv DY [i; c] = rmul (dv DX [i; c]) (dv Dd [c])).
  Proof.
    intros [SA VA] EA _ _. rewrite !map_id'. assert (F1 : firstn (length l1) (dsh A) = l1) by (rewrite EA, firstn_app, Nat.sub_diag, firstn_all, app_nil_r; reflexivity).
    assert (F2 : skipn (length l1) (dsh A) = l2) by (rewrite EA, skipn_app, Nat.sub_diag, skipn_all; reflexivity).
    set (m := prod_list l1). set (n := prod_list l2). set (M := d_reshape [m; n] A). set (k := Nat.min m n).
    assert (PM : prod_list [m; n] = prod_list (dsh A)) by (rewrite EA, prod_list_app; cbn; unfold m, n; lia).
    assert (VM : forall i j, in_range l1 i = true -> in_range l2 j = true -> dv M [rowmajor l1 i; rowmajor l2 j] = dv A (i ++ j)).
    { intros i j Hi Hj. pose proof (in_range_length _ _ Hi) as Li. apply reshape_dv; [exact PM| |].
      - rewrite EA, IndexProofs.in_range_app, Hi, Hj by exact Li. reflexivity.
      - rewrite EA, rowmajor_app by exact Li. cbn. unfold n. lia. }
    assert (CM : cut_matrix (length l1) A M) by (unfold cut_matrix; rewrite F1, F2; split; [reflexivity|exact VM]).
    destruct (H_thin M) as (HT & HRE); [exists m, n; reflexivity|].
    assert (HIS : diso (length l1) A -> isometries M (dsvd M)) by (intros H; apply H; exact CM).
    unfold d_svd. replace (length (dsh A) <? length l1) with false by (symmetry; apply Nat.ltb_ge; rewrite EA, app_length; lia). rewrite F1, F2. fold m n. unfold t_reshape at 1. rewrite PM, Nat.eqb_refl. cbn [rbind]. fold M.
    destruct (dsvd M) as ((u, d), v) eqn:ED. cbn [fst snd] in HRE. destruct (HT m n eq_refl) as (Su & Sd & Sv & HF). fold k in Su, Sd, Sv, HF.
    assert (P1 : prod_list (l1 ++ [k]) = prod_list (dsh u)) by (rewrite Su, prod_list_app; cbn; unfold m; lia). assert (P2 : prod_list (l2 ++ [k]) = prod_list (dsh v)) by (rewrite Sv, prod_list_app; cbn; unfold n; lia).
    rewrite Sd. unfold t_reshape. rewrite P1, P2, !Nat.eqb_refl. cbn [rbind].
    assert (VU : forall l (w : dense R) i c, dsh w = [prod_list l; k] -> prod_list (l ++ [k]) = prod_list (dsh w) -> in_range l i = true -> c < k -> dv (d_reshape (l ++ [k]) w) (i ++ [c]) = dv w [rowmajor l i; c]).
    { intros l w i c Sw Pw Hi Hc. apply reshape_dv; [exact Pw|rewrite Sw; apply pair_in; [apply rowmajor_lt; exact Hi|exact Hc]|]. rewrite Sw, rowmajor_app by (apply in_range_length; exact Hi). cbn. lia. }
    assert (TO : forall l (w : dense R), dsh w = [prod_list l; k] -> prod_list (l ++ [k]) = prod_list (dsh w) -> orthonormal (prod_list l) k w -> tensor_orthonormal l k (d_reshape (l ++ [k]) w)).
    { intros l w Sw Pw HO c c' Hc Hc'. rewrite <- (HO c c' Hc Hc'), <- sum_ranks. apply sumf_ext. intros i Hi. apply idxs_In in Hi. rewrite !VU by assumption. reflexivity. }
    exists (d_reshape (l1 ++ [k]) u), d, (d_reshape (l2 ++ [k]) v), k, (d_reshape (l1 ++ [k]) u), d, (d_reshape (l2 ++ [k]) v).
    split; [reflexivity|]. split; [reflexivity|]. split; [reflexivity|]. split; [split; auto|]. split; [split; auto|]. split; [reflexivity|]. split; [reflexivity|]. split; [|split; [exact HRE|split]].
    - split; [reflexivity|]. split; [exact Sd|]. split; [reflexivity|]. intros i j Hi Hj. rewrite <- VA by (rewrite EA, IndexProofs.in_range_app, Hi, Hj by (apply in_range_length; exact Hi); reflexivity).
      rewrite <- VM, HF by (assumption || (apply rowmajor_lt; assumption)). apply sumf_ext. intros c Hc. apply in_seq in Hc. rewrite !VU by (assumption || lia). reflexivity.
    - intros H. apply HIS in H. destruct (H m n eq_refl) as (O1 & O2). fold k in O1, O2. split; apply TO; assumption.
    - intros X DX l [SX VX] EX. unfold t_zip. rewrite EX, Sd. cbn [rev app bc_shape]. rewrite Nat.eqb_refl. cbn [orb andb]. eexists. eexists. split; [reflexivity|].
      replace (if k =? 1 then k else k) with k by (destruct (k =? 1); reflexivity). cbn [rev app]. split; [reflexivity|]. split; [split; [reflexivity|intros; reflexivity]|]. split; [reflexivity|].
      intros i c Hi Hc. cbn [dv]. rewrite <- VX by (rewrite EX; apply pair_in; assumption). f_equal.
      + f_equal. unfold bproj. cbn. destruct (l =? 1) eqn:E1, (k =? 1) eqn:E2; try apply Nat.eqb_eq in E1; try apply Nat.eqb_eq in E2; repeat f_equal; lia.
      + f_equal. unfold bproj. cbn. destruct (k =? 1) eqn:E2; try apply Nat.eqb_eq in E2; repeat f_equal; lia.
  Qed.

  Theorem mps_move_ok (sites Ds : list (dense R)) x y oc i : Forall2 (@dden R) sites Ds -> mps_fit (@dsh R) (fun k => k) sites x y -> oc < length sites -> i < length sites ->
    exists sites' Ds', mps_move dsvd sites (Z.of_nat oc) (Z.of_nat i) = Ok (sites', Z.of_nat i) /\ Forall2 (@dden R) sites' Ds' /\ mps_fit (@dsh R) (fun k => k) sites' x y /\ length sites' = length sites /\
      same_state Ds Ds' x y /\ (forall j, j < Nat.min i oc \/ Nat.max i oc < j -> nth_error sites' j = nth_error sites j) /\
      ((forall j s A, i < j <= oc \/ oc <= j < i -> mps_move dsvd sites (Z.of_nat oc) (Z.of_nat j) = Ok (s, Z.of_nat j) -> nth_error s j = Some A -> diso (if i <? oc then 1 else 2) A) ->
       forall lo hi, centred lo hi oc Ds -> centred (Nat.min lo i) (Nat.max hi (S i)) i Ds').
  Proof.
    intros HD HF Ho Hi.
    assert (H0 : forall A B DA DB d1 d2, dden A DA -> dden B DB -> length d1 = length d2 -> NoDup d1 -> NoDup d2 ->
      (forall k, In k d1 -> k < length (dsh A)) -> (forall k, In k d2 -> k < length (dsh B)) ->
      gather 0 d1 (dsh A) = map (fun k => k) (gather 0 d2 (dsh B)) -> 0 < length (dsh A) -> 0 < length (dsh B) ->
      exists C : dense R, t_tdot A B d1 d2 = Ok C /\ dsh C = gather 0 (free (length (dsh A)) d1) (dsh A) ++ gather 0 (free (length (dsh B)) d2) (dsh B) /\ dden C (d_tdot DA DB d1 d2) /\ tt = tt).
    { intros A B DA DB d1 d2 h1 h2 h3 h4 h5 h6 h7 h8 h9 h10. destruct (dden_tdot h1 h2 h3 h4 h5 h6 h7 h8 h9 h10) as (C & c1 & c2 & c3). eauto. }
    assert (H1 : forall A DA : dense R, dden A DA -> dsh (t_conj A) = map (fun k => k) (dsh A) /\ dden (t_conj A) (d_map rconj DA) /\ tt = tt) by (intros A DA h; destruct (dden_conj h); auto).
    assert (H2 : forall (A DA : dense R) p, dden A DA -> length p = length (dsh A) -> NoDup p -> (forall k, In k p -> k < length (dsh A)) -> exists C, t_perm p A = Ok C /\ dsh C = gather 0 p (dsh A) /\ dden C (d_permute p DA) /\ tt = tt).
    { intros A DA p h1 h2 h3 h4. destruct (dden_perm h1 h2 h3 h4) as (C & c1 & c2 & c3). eauto. }
    pose proof (@d_pulls R unit_group (dense R) nat (@dsh R) (fun k => k) (fun k => k) 0 (@dden R) (fun _ => tt) (d_svd dsvd) (t_zip false rmul) (@t_tdot R) (@t_conj R) (@t_perm R) diso (fun k => eq_refl) (fun k => eq_refl) (@dden_shape R) H0 H1 H2 False dense_svd) as HP.
    pose proof (@d_pushes R unit_group (dense R) nat (@dsh R) (fun k => k) (fun k => k) 0 (@dden R) (fun _ => tt) (d_svd dsvd) (t_zip false rmul) (@t_tdot R) (@t_conj R) (@t_perm R) diso (fun k => eq_refl) (fun k => eq_refl) (@dden_shape R) H0 H1 H2 False dense_svd) as HQ.
    destruct (@move_ok R unit_group (dense R) nat (@dsh R) (fun k => k) (fun k => k) (@dden R) (fun _ => tt) diso (fun k => eq_refl) (@dden_shape R) False _ _ HP HQ sites Ds x y oc i (Logic.conj HD HF) (fun F => match F with end) Ho Hi) as (s' & D' & E & ((G1 & G2) & A1 & _) & L & N & C).
    assert (MV : forall j, j < length sites -> mps_move dsvd sites (Z.of_nat oc) (Z.of_nat j) = move_to (d_pull (d_svd dsvd) (t_zip false rmul) (@t_tdot R) (@t_conj R) (@t_perm R)) (d_push (d_svd dsvd) (t_zip false rmul) (@t_tdot R) (@t_conj R) (@t_perm R)) sites (Z.of_nat oc) (Z.of_nat j)).
    { intros j Hj. unfold mps_move. replace (negb _) with false by (symmetry; apply negb_false_iff, andb_true_iff; rewrite Z.leb_le, Z.ltb_lt; lia). rewrite zget_nat. unfold rnth.
      destruct (nth_error sites oc) eqn:En; [reflexivity|]. apply nth_error_None in En. lia. }
    exists s', D'. rewrite MV by exact Hi. split; [exact E|]. split; [exact G1|]. split; [exact G2|]. split; [exact L|]. split; [exact A1|]. split; [exact N|].
    intros HI. apply C. intros j s A Hj Ej EA. apply (HI j s A Hj); [|exact EA]. rewrite MV by lia. exact Ej.
  Qed.
End D.

Section B.
  Variable G : abgroup.
  Variable R : ring.
  Add Ring Rring' : (ring_th R).
  Variable imax : nat.
  Variable dsvd : dense R -> dense R * dense R * dense R.
  Hypothesis H_thin : forall M, (exists m n, dsh M = [m; n]) -> thin M (dsvd M) /\ real_entries (snd (fst (dsvd M))).
  Notation bt := (btensor G R).
  Notation tl := (@blegs G R).
  Notation dual := (@bdual G).
  Notation den := (@stored G R imax).
  Notation bsz := (@bsz G).
  Definition biso (s : nat) (A : bt) : Prop := forall D M, dense_form A D -> sector_matrix s A D M -> isometries M (dsvd M).

  Lemma neutral_q (q : list G) : bqleg q (map (fun _ => qe G) q) = q.
  Proof.
    rewrite BmmThms.bqleg_same by (rewrite map_length; reflexivity). induction q as [|a q IH]; [reflexivity|]. cbn. rewrite IH, qop_e_r. reflexivity.
  Qed.
  Lemma blegs_split (T : bt) L : meta_ok T -> tl T = L -> legs T = map fst L /\ qlegs T = map snd L.
  Proof.
    intros M <-. split; [symmetry; apply blegs_fst; exact M|]. unfold blegs. assert (H : length (legs T) = length (qlegs T)) by (rewrite (legs_length M), (qlegs_length M); reflexivity).
    revert H. generalize (legs T) (qlegs T). induction l as [|a l IH]; intros [|b m] H; try discriminate; [reflexivity|]. cbn in *. rewrite <- IH by lia. reflexivity.
  Qed.
  Lemma sbd_imax (T : bt) : meta_ok T -> (forall l, In l (tl T) -> length (fst l) <= imax) -> forall s, In s (b_sbd T) -> s <= imax.
  Proof. intros M H s Hs. rewrite <- (legs_lens M), <- (blegs_fst M) in Hs. unfold lens in Hs. rewrite map_map in Hs. apply in_map_iff in Hs as (l & <- & Hl). auto. Qed.
  Lemma imax_sbd (T : bt) : meta_ok T -> (forall s, In s (b_sbd T) -> s <= imax) -> forall l, In l (tl T) -> length (fst l) <= imax.
  Proof. intros M H l Hl. apply H. rewrite <- (legs_lens M), <- (blegs_fst M). unfold lens. rewrite map_map. apply in_map_iff. exists l. auto. Qed.

  Lemma block_svd (A : bt) DA l1 l2 : den A DA -> tl A = l1 ++ l2 -> (length l1 = 1 /\ l2 <> [] \/ l1 <> [] /\ length l2 = 1) -> (True -> ~ zero_site DA) ->
    exists U d V k DU Dd DV, svd_split dsvd A (length l1) = Ok (U, d, V) /\ tl U = l1 ++ [k] /\ tl V = map dual l2 ++ [k] /\ den U DU /\ den V DV /\
      b_rule U = b_rule A /\ b_rule V = qe G /\ tensor_factors (map bsz l1) (map bsz l2) (bsz k) DA DU Dd DV /\ real_entries Dd /\
      (biso (length l1) A -> tensor_orthonormal (map bsz l1) (bsz k) DU /\ tensor_orthonormal (map bsz l2) (bsz k) DV) /\
      (forall X DX l, den X DX -> tl X = l :: [k] -> exists Y DY, b_mul X d = Ok Y /\ tl Y = tl X /\ den Y DY /\ b_rule Y = b_rule X /\
         forall i c, i < bsz l -> c < bsz k -> dv DY [i; c] = rmul (dv DX [i; c]) (dv Dd [c])).
  Proof.
    intros (VA & FA & IA) EA HC NZ'. pose proof (NZ' I) as NZ. pose proof VA as [MA _].
    assert (F1 : firstn (length l1) (tl A) = l1) by (rewrite EA, firstn_app, Nat.sub_diag, firstn_all, app_nil_r; reflexivity).
    assert (F2 : skipn (length l1) (tl A) = l2) by (rewrite EA, skipn_app, Nat.sub_diag, skipn_all; reflexivity).
    assert (LA : b_rank A = length l1 + length l2) by (rewrite <- (blegs_length MA), EA, app_length; reflexivity).
    assert (HN : nonempty A).
    { intros l Hl. destruct (Nat.eq_dec (sum_list l) 0) as [E0|E0]; [|lia]. exfalso. apply NZ. intros i Hi. exfalso. rewrite (proj1 FA) in Hi. revert Hl Hi. generalize (legs A). intros L. revert i. induction L as [|a L IH]; intros [|x i]; cbn; try tauto; try discriminate.
      intros Hl Hi. apply andb_true_iff in Hi as (H1 & H2). apply Nat.ltb_lt in H1. destruct Hl as [->|Hl]; [lia|]. eapply IH; eauto. }
    assert (HB : b_blocks A <> []).
    { intros EB. apply NZ. intros i Hi. rewrite (proj1 FA) in Hi. change (in_range (tots (legs A)) i = true) in Hi. destruct (unplace_spec _ _ Hi) as (H1 & H2 & H3).
      rewrite <- H3, (proj2 FA); [|rewrite <- (legs_lens MA); exact H1|exact H2]. unfold bentry. rewrite EB. reflexivity. }
    assert (Hs : 0 < length l1 < b_rank A) by (rewrite LA; destruct HC as [(E1 & E2)|(E1 & E2)]; [destruct l2; [congruence|cbn; lia]|destruct l1; [congruence|cbn; lia]]).
    assert (SM : forall M, sector_matrix (length l1) A DA M -> exists m n, dsh M = [m; n]) by (intros M (m & n & _ & _ & _ & _ & E & _); eauto).
    destruct (@svd_split_ok G R dsvd A DA (length l1) VA HN Hs HB FA (fun M H => proj1 (H_thin M (SM M H)))) as (U & d & V & k & E & DC & HI & HR & _).
    destruct DC as (VU & Vd & VV & LK & _ & B1 & B2 & _ & _ & LU & Ld & LV & RU & Rd & RV & DU & Dd & DV & FU & Fd & FV & HF). rewrite F1, F2 in *.
    assert (IK : length (fst k) <= imax).
    { assert (IL : forall l, In l (tl A) -> length (fst l) <= imax) by (apply imax_sbd; assumption). destruct HC as [(E1 & E2)|(E1 & E2)].
      - destruct l1 as [|a [|]]; try discriminate. unfold sections in B1. cbn in B1. rewrite Nat.mul_1_r in B1. specialize (IL a). rewrite EA in IL. specialize (IL (or_introl eq_refl)). lia.
      - destruct l2 as [|a [|]]; try discriminate. unfold sections in B2. cbn in B2. rewrite Nat.mul_1_r in B2. specialize (IL a). rewrite EA in IL. specialize (IL (in_or_app l1 [a] a (or_intror (or_introl eq_refl)))). lia. }
    assert (IL : forall l, In l (l1 ++ l2) -> length (fst l) <= imax) by (rewrite <- EA; apply imax_sbd; assumption).
    exists U, d, V, k, DU, Dd, DV. split; [exact E|]. split; [exact LU|]. split; [exact LV|].
    split; [split; [exact VU|split; [exact FU|]]|].
    { apply sbd_imax; [apply VU|]. rewrite LU. intros l Hl. apply in_app_or in Hl as [Hl|[<-|[]]]; [apply IL, in_or_app; auto|exact IK]. }
    split; [split; [exact VV|split; [exact FV|]]|].
    { apply sbd_imax; [apply VV|]. rewrite LV. intros l Hl. apply in_app_or in Hl as [Hl|[<-|[]]]; [|exact IK]. apply in_map_iff in Hl as (l' & <- & Hl). cbn. apply IL, in_or_app; auto. }
    split; [exact RU|]. split; [exact RV|]. split; [exact HF|]. split; [apply HR; [intros M H; apply H_thin, SM, H|exact Fd]|]. split.
    { intros H. destruct (HI (fun M HM => H DA M FA HM) DU DV FU FV) as (O1 & O2). rewrite F1 in O1. rewrite F2 in O2. auto. }
    intros X DX l (VX & FX & IX) EX. destruct (blegs_split (proj1 VX) EX) as (LX & QX). destruct (blegs_split (proj1 Vd) Ld) as (Ldl & Ldq). cbn in LX, QX, Ldl, Ldq.
    assert (RX : b_rank X = 2) by (rewrite <- (blegs_length (proj1 VX)), EX; reflexivity). assert (Rkd : b_rank d = 1) by (rewrite <- (blegs_length (proj1 Vd)), Ld; reflexivity).
    assert (OK : bc_ok X d).
    { unfold bc_ok. rewrite RX, Rkd. cbn [Nat.max Nat.leb]. rewrite LX, Ldl. split.
      - intros [|[|j]] Hj; cbn; [tauto|tauto|lia].
      - intros (j & Hj & HB'). cbn in Hj. assert (j = 1) by lia. subst j. cbn in HB'. destruct HB' as [(E1 & [E2|(m & Hm & E2)])|(E1 & E2)]; congruence. }
    destruct (mul_thm VX Vd OK FX Fd) as (Y & DY & EY & (VY & RY & LY & QY & _) & EZ & FY). rewrite RX, Rkd in LY, QY. cbn [Nat.max] in LY, QY.
    rewrite LX, Ldl in LY. rewrite QX, Ldq in QY. cbn in LY, QY. rewrite bleg_r1, bleg_same in LY. rewrite bqleg_e, neutral_q in QY.
    assert (TY : tl Y = tl X) by (rewrite EX; unfold blegs; rewrite LY, QY; destruct l, k; reflexivity).
    exists Y, DY. split; [exact EY|]. split; [exact TY|]. split; [split; [exact VY|split; [exact FY|]]|].
    { apply sbd_imax; [apply VY|]. rewrite TY. apply imax_sbd; [apply VX|exact IX]. }
    split; [rewrite RY, Rd; apply qop_e_r|]. intros i c Hi Hc.
    assert (SX : dsh DX = [bsz l; bsz k]) by (rewrite (proj1 FX), LX; reflexivity). assert (Sd : dsh Dd = [bsz k]) by (rewrite (proj1 Fd), Ldl; reflexivity).
    unfold t_zip in EZ. rewrite SX, Sd in EZ. cbn [rev app bc_shape] in EZ. rewrite Nat.eqb_refl in EZ. cbn [orb andb] in EZ. injection EZ as <-. cbn [dv]. f_equal.
    - f_equal. unfold bproj. cbn. destruct (bsz l =? 1) eqn:E1, (bsz k =? 1) eqn:E2; try apply Nat.eqb_eq in E1; try apply Nat.eqb_eq in E2; repeat f_equal; lia.
    - f_equal. unfold bproj. cbn. destruct (bsz k =? 1) eqn:E2; try apply Nat.eqb_eq in E2; repeat f_equal; lia.
  Qed.

  Theorem bmps_move_ok (sites : list bt) Ds x y oc i : Forall2 den sites Ds -> mps_fit tl dual sites x y -> ~ zero_state Ds (bsz x) (bsz y) -> oc < length sites -> i < length sites ->
    exists sites' Ds', bmps_move imax dsvd sites (Z.of_nat oc) (Z.of_nat i) = Ok (sites', Z.of_nat i) /\ Forall2 den sites' Ds' /\ mps_fit tl dual sites' x y /\ length sites' = length sites /\
      same_state Ds Ds' (bsz x) (bsz y) /\ qprod G (map (@b_rule G R) sites') = qprod G (map (@b_rule G R) sites) /\
      (forall j, j < Nat.min i oc \/ Nat.max i oc < j -> nth_error sites' j = nth_error sites j) /\
      ((forall j s A, i < j <= oc \/ oc <= j < i -> bmps_move imax dsvd sites (Z.of_nat oc) (Z.of_nat j) = Ok (s, Z.of_nat j) -> nth_error s j = Some A -> biso (if i <? oc then 1 else 2) A) ->
       forall lo hi, centred lo hi oc Ds -> centred (Nat.min lo i) (Nat.max hi (S i)) i Ds').
  Proof.
    intros HD HF NZ Ho Hi.
    assert (H0 : forall A B DA DB d1 d2, den A DA -> den B DB -> length d1 = length d2 -> NoDup d1 -> NoDup d2 ->
      (forall k, In k d1 -> k < length (tl A)) -> (forall k, In k d2 -> k < length (tl B)) ->
      gather (bk0 G) d1 (tl A) = map dual (gather (bk0 G) d2 (tl B)) -> 0 < length (tl A) -> 0 < length (tl B) ->
      exists C, tensordot imax A B d1 d2 = Ok C /\ tl C = gather (bk0 G) (free (length (tl A)) d1) (tl A) ++ gather (bk0 G) (free (length (tl B)) d2) (tl B) /\ den C (d_tdot DA DB d1 d2) /\ b_rule C = qop G (b_rule A) (b_rule B)).
    { intros A B DA DB d1 d2 h1 h2 h3 h4 h5 h6 h7 h8 h9 h10. exact (stored_tdot_rule h1 h2 h3 h4 h5 h6 h7 h8 h9 h10). }
    assert (H1 : forall A DA, den A DA -> tl (conj A) = map dual (tl A) /\ den (conj A) (d_map rconj DA) /\ b_rule (conj A) = qinv G (b_rule A)) by (intros A DA h; destruct (stored_conj h); auto).
    assert (H2 : forall A DA p, den A DA -> length p = length (tl A) -> NoDup p -> (forall k, In k p -> k < length (tl A)) -> exists C, b_perm p A = Ok C /\ tl C = gather (bk0 G) p (tl A) /\ den C (d_permute p DA) /\ b_rule C = b_rule A).
    { intros A DA p h1 h2 h3 h4. exact (stored_perm_rule h1 h2 h3 h4). }
    pose proof (@b_pulls R G bt _ tl dual bsz (bk0 G) den (@b_rule G R) (svd_split dsvd) b_mul (tensordot imax) (@conj G R) b_perm biso (@bdual_dual G) (@bdual_size G) (@stored_shape G R imax) H0 H1 H2 True block_svd) as HP.
    pose proof (@b_pushes R G bt _ tl dual bsz (bk0 G) den (@b_rule G R) (svd_split dsvd) b_mul (tensordot imax) (@conj G R) b_perm biso (@bdual_dual G) (@bdual_size G) (@stored_shape G R imax) H0 H1 H2 True block_svd) as HQ.
    destruct (@move_ok R G bt _ tl dual bsz den (@b_rule G R) biso (@bdual_size G) (@stored_shape G R imax) True _ _ HP HQ sites Ds x y oc i (Logic.conj HD HF) (fun _ => NZ) Ho Hi) as (s' & D' & E & ((G1 & G2) & A1 & A2) & L & N & C).
    exists s', D'. split; [exact E|]. split; [exact G1|]. split; [exact G2|]. split; [exact L|]. split; [exact A1|]. split; [exact A2|]. split; [exact N|]. exact C.
  Qed.
End B.
