(** One turn of the compression of an operator chain. *)
From Verif Require Import Base Quantity QuantityProofs FlatMap SpecFlatMap FlatMapProofs Ring Index SpecIndex IndexProofs Dense BTensor SpecBTensor LegsProofs BTensorProofs BTensorThms
  BTensorArith SpecArith ArithProofs ArithThms Tensordot SpecTensordot TensordotProofs TensordotThms View Bcast SpecBcast BcastProofs BcastThms BcastMain Chain SpecChain ChainProofs ChainThms ChainInst
  SpecEdges SpecSector BSvd SpecSvd SvdDense Truncate SpecTruncate BTrunc SpecBTrunc BTruncProofs BTruncThms BTruncMain MoveProofs MoveInst Coalesce SpecCoalesce.
Set Implicit Arguments.

Section B.
  Variable G : abgroup.
  Variable R : ring.
  Add Ring Rring' : (ring_th R).
  Variable imax : nat.
  Notation bt := (btensor G R).
  Notation tl := (@blegs G R).
  Notation dual := (@bdual G).
  Notation den := (@stored G R imax).
  Notation bsz := (@bsz G).
  Notation leg := (list nat * list G)%type.

  Lemma bproj_id (sh i : list nat) : in_range sh i = true -> bproj sh i = i.
  Proof.
    intros H. unfold bproj. rewrite (in_range_length _ _ H), Nat.sub_diag. cbn [skipn]. revert i H. induction sh as [|n sh IH]; intros [|x i] H; try discriminate; [reflexivity|].
    cbn [in_range] in H. apply andb_true_iff in H as (H1 & H2). apply Nat.ltb_lt in H1. cbn [map2]. rewrite (IH _ H2). f_equal. destruct (Nat.eqb_spec n 1); lia.
  Qed.
  (** A tensor with four dimensions times a vector along the last one. *)
  Lemma scale_last (X d : bt) DX Dd a b c k : den X DX -> tl X = [a; b; c; k] -> valid d -> tl d = [neutral_leg k] -> b_rule d = qe G -> dense_form d Dd ->
    exists Y DY, b_mul_ X d = Ok Y /\ tl Y = tl X /\ den Y DY /\ b_rule Y = b_rule X /\
      forall i j l z, i < bsz a -> j < bsz b -> l < bsz c -> z < bsz k -> dv DY [i; j; l; z] = rmul (dv DX [i; j; l; z]) (dv Dd [z]).
  Proof.
    intros (VX & FX & IX) EX Vd Ld Rd Fd. destruct (blegs_split (proj1 VX) EX) as (LX & QX). destruct (blegs_split (proj1 Vd) Ld) as (Ldl & Ldq). cbn in LX, QX, Ldl, Ldq.
    assert (RX : b_rank X = 4) by (rewrite <- (blegs_length (proj1 VX)), EX; reflexivity). assert (Rkd : b_rank d = 1) by (rewrite <- (blegs_length (proj1 Vd)), Ld; reflexivity).
    assert (OK : bc_ok X d).
    { unfold bc_ok. rewrite RX, Rkd. cbn [Nat.max Nat.leb]. rewrite LX, Ldl. split.
      - intros [|[|[|[|j]]]] Hj; cbn; try tauto; lia.
      - intros (j & Hj & HB'). cbn in Hj. assert (j = 3) by lia. subst j. cbn in HB'. destruct HB' as [(E1 & [E2|(m & Hm & E2)])|(E1 & E2)]; congruence. }
    destruct (mul_thm VX Vd OK FX Fd) as (Y & DY & EY & (VY & RY & LY & QY & _) & EZ & FY). rewrite RX, Rkd in LY, QY. cbn [Nat.max] in LY, QY.
    rewrite LX, Ldl in LY. rewrite QX, Ldq in QY. cbn in LY, QY. rewrite !bleg_r1, bleg_same in LY. rewrite !bqleg_e, neutral_q in QY.
    assert (TY : tl Y = tl X) by (rewrite EX; unfold blegs; rewrite LY, QY; destruct a, b, c, k; reflexivity).
    exists Y, DY. split; [unfold b_mul_; rewrite inplace_thm by (rewrite ?RX, ?Rkd; try lia; assumption); exact EY|].
    split; [exact TY|]. split; [split; [exact VY|split; [exact FY|]]|].
    { apply sbd_imax; [apply VY|]. rewrite TY. apply imax_sbd; [apply VX|exact IX]. }
    split; [rewrite RY, Rd; apply qop_e_r|]. intros i j l z Hi Hj Hl Hz.
    assert (SX : dsh DX = [bsz a; bsz b; bsz c; bsz k]) by (rewrite (proj1 FX), LX; reflexivity). assert (Sd : dsh Dd = [bsz k]) by (rewrite (proj1 Fd), Ldl; reflexivity).
    unfold t_zip in EZ. rewrite SX, Sd in EZ. cbn [rev app bc_shape] in EZ. rewrite Nat.eqb_refl in EZ. cbn [orb andb] in EZ. injection EZ as <-. cbn [dv]. f_equal.
    - f_equal. apply bproj_id. cbn. rewrite !(proj2 (Nat.ltb_lt _ _)) by assumption. reflexivity.
    - f_equal. transitivity (bproj [bsz k] [z]); [reflexivity|]. apply bproj_id. cbn. rewrite !(proj2 (Nat.ltb_lt _ _)) by assumption. reflexivity.
  Qed.
  Lemma tdot_24 (A B : dense R) k y p z p' a b c d : dsh A = [k; y] -> dsh B = [k; p; z; p'] ->
    dv (d_tdot A B [0] [0]) [a; b; c; d] = sum i < k, rmul (dv A [i; a]) (dv B [i; b; c; d]).
  Proof. intros EA EB. unfold d_tdot. rewrite EA, EB. cbn [length free seq filter existsb Nat.eqb negb orb gather map nth app dv firstn skipn]. rewrite sum_idxs1. reflexivity. Qed.
  Lemma op_amp_one (A : dense R) i j a b x p k p' : dsh A = [x; p; k; p'] -> b < k -> op_amp [A] [i] [j] a b = dv A [a; i; b; j].
  Proof. intros E Hb. cbn [op_amp]. unfold size. rewrite E. cbn [nth]. apply (sum_delta R (fun c => dv A [a; i; c; j]) Hb). Qed.

  Lemma carries_lt (k : leg) y q : carries k y q -> y < bsz k.
  Proof.
    intros (b & o & (H1 & H2 & H3) & _). rewrite H3. unfold SpecChain.bsz. revert b H1 H2 H3. generalize (fst k). intros l. revert y. induction l as [|n l IH]; intros y [|b] H1 H2 H3; cbn in H1; try lia.
    - cbn in *. lia.
    - cbn [firstn nth] in *. change (sum_list (n :: l)) with (n + sum_list l). change (sum_list (n :: firstn b l)) with (n + sum_list (firstn b l)).
      specialize (IH (sum_list (firstn b l) + o) b ltac:(lia) H2 eq_refl). lia.
  Qed.
  Lemma tots_blegs (T : bt) L : meta_ok T -> tl T = L -> tots (legs T) = map bsz L.
  Proof. intros M E. rewrite (proj1 (blegs_split M E)). unfold tots. rewrite map_map. reflexivity. Qed.

  (** A matrix element other than zero lies in a stored block. *)
  Lemma nonzero_block (T : bt) D i : valid T -> dense_form T D -> in_range (dsh D) i = true -> dv D i <> rz ->
    exists e, In e (b_blocks T) /\ fst e = blkL (legs T) i /\ in_range (dsh (snd e)) (offL (legs T) i) = true /\ dv (snd e) (offL (legs T) i) <> rz.
  Proof.
    intros VT FT Hi NZ. rewrite (proj1 FT) in Hi. change (in_range (tots (legs T)) i = true) in Hi. destruct (unplace_spec _ _ Hi) as (H1 & H2 & H3). rewrite (legs_lens (proj1 VT)) in H1.
    rewrite <- H3, (proj2 FT _ _ H1 H2) in NZ. unfold bentry in NZ. destruct (assoc leqb (blkL (legs T) i) (b_blocks T)) as [v|] eqn:E; [|congruence].
    exists (blkL (legs T) i, v). destruct VT as (M & HB & HS).
    apply (assoc_nodup (b_blocks T) (blkL (legs T) i) v (sorted_nodup HS)) in E. split; [exact E|]. split; [reflexivity|]. split; [|exact NZ].
    cbn [snd]. destruct (HB _ _ E) as (_ & Hs). rewrite Hs. exact H2.
  Qed.

  Variable W : weights.
  Variable gtb : R -> R -> bool.
  Variable lower : R -> R.
  Variable wt : R -> W.
  Hypothesis HO : total_order gtb.
  Variable dsvd : dense R -> dense R * dense R * dense R.
  Variable thr : W.
  Hypothesis exact_cut : forall l, wgtb (total wt l) thr = true <-> exists x, In x l /\ x <> rz.
  Hypothesis low : forall x, gtb x rz = true -> gtb x (lower x) = true.
  Hypothesis H_svd : forall M, (exists m n, dsh M = [m; n]) -> thin M (dsvd M) /\ descending gtb (entries (snd (fst (dsvd M)))) /\ forall x, In x (entries (snd (fst (dsvd M)))) -> gtb rz x = false.
  Notation step := (coalesce_step (fun A s => svd_tol gtb lower wt dsvd A s thr) b_mul_ (tensordot imax) (@conj G R) b_perm).

  Ltac nodup := repeat (apply NoDup_cons; [cbn; intuition discriminate|]); apply NoDup_nil.
  Ltac inl := let k := fresh in let H := fresh in intros k H; cbn in H |- *; intuition lia.

  Lemma step_ok (A B : bt) DA DB x p k p' p2 y p2' : den A DA -> den B DB -> tl A = [dual x; p; k; p'] -> tl B = [dual k; p2; y; p2'] ->
    bond_reached [DA] (bsz x) k -> (Z.of_nat (bsz k) <= 2 ^ 63)%Z ->
    exists A' B' DA' DB' k', step A B = Some (Ok (A', B')) /\ den A' DA' /\ den B' DB' /\ tl A' = [dual x; p; k'; p'] /\ tl B' = [dual k'; p2; y; p2'] /\
      b_rule A' = b_rule A /\ b_rule B' = b_rule B /\ NoDup (snd k') /\ length (fst k') <= length (fst k) /\ bsz k' <= bsz k /\
      forall a i j i2 b j2, a < bsz x -> i < bsz p -> j < bsz p' ->
        (sum c < bsz k', rmul (dv DA' [a; i; c; j]) (dv DB' [c; i2; b; j2])) = sum c < bsz k, rmul (dv DA [a; i; c; j]) (dv DB [c; i2; b; j2]).
  Proof.
    intros HA HB EA EB (NK & HK) HZ. pose proof (stored_shape HA) as SA. pose proof (stored_shape HB) as SB. rewrite EA in SA. rewrite EB in SB. cbn [map] in SA, SB. rewrite bdual_size in SA, SB.
    destruct (@stored_perm_rule G R imax A DA [0; 1; 3; 2] HA) as (T & ET & LT & HT & RT); [rewrite EA; reflexivity|nodup|rewrite EA; inl|].
    rewrite EA in LT. cbn in LT. pose proof (stored_shape HT) as ST. rewrite LT in ST. cbn [map] in ST. rewrite bdual_size in ST.
    destruct HT as (VT & FT & IT). pose proof VT as (MT & BT & OT). destruct (blegs_split MT LT) as (LL & QL). cbn [map] in LL, QL.
    assert (DT : forall a i j m, dv (d_permute [0; 1; 3; 2] DA) [a; i; j; m] = dv DA [a; i; m; j]) by reflexivity.
    (* for every section, an entry other than zero *)
    assert (HE : forall b, b < length (fst k) -> exists e o, In e (b_blocks T) /\ block_quantity 3 T (fst e) = nth b (snd k) (qe G) /\ in_range (dsh (snd e)) o = true /\ dv (snd e) o <> rz /\ (0 < bsz x /\ 0 < bsz p /\ 0 < bsz p' /\ 0 < bsz k)).
    { intros b Hb. destruct (HK b Hb) as (out & inn & a & m & Ho & Hi & Ha & Hm & HN). pose proof (carries_lt Hm) as Lm.
      destruct out as [|i [|]]; try discriminate; [|cbn in Ho; rewrite andb_false_r in Ho; discriminate]. destruct inn as [|j [|]]; try discriminate; [|cbn in Hi; rewrite andb_false_r in Hi; discriminate].
      cbn in Ho, Hi. unfold size in Ho, Hi. rewrite SA in Ho, Hi. cbn in Ho, Hi. rewrite andb_true_r in Ho, Hi. apply Nat.ltb_lt in Ho, Hi.
      rewrite (@op_amp_one DA i j a m _ _ _ _ SA Lm) in HN. rewrite <- DT in HN.
      destruct (@nonzero_block T _ [a; i; j; m] VT FT) as (e & E1 & E2 & E3 & E4); [rewrite ST; cbn; rewrite !(proj2 (Nat.ltb_lt _ _)) by assumption; reflexivity|exact HN|].
      exists e, (offL (legs T) [a; i; j; m]). split; [exact E1|]. split; [|split; [exact E3|split; [exact E4|repeat split; lia]]].
      rewrite E2, LL. unfold block_quantity. rewrite QL. cbn [skipn]. destruct Hm as (b' & o' & Hl & <-). apply find_section_unique in Hl. unfold blkL. cbn. rewrite Hl. cbn. apply qop_e_r. }
    assert (HN : nonempty T).
    { destruct (HE 0) as (e & o & _ & _ & _ & _ & P1 & P2 & P3 & P4); [destruct (fst k); [congruence|cbn; lia]|]. intros l Hl. rewrite LL in Hl. cbn in Hl. destruct Hl as [<-|[<-|[<-|[<-|[]]]]]; assumption. }
    assert (RkT : b_rank T = 4) by (rewrite <- (blegs_length MT), LT; reflexivity).
    assert (HS : 0 < 3 < b_rank T) by (rewrite RkT; lia).
    destruct (@svd_tol_ok G R W gtb lower wt HO dsvd thr exact_cut low T (d_permute [0; 1; 3; 2] DA) 3 VT HN HS) as (U & d & V & k' & ES & DC & _ & _).
    { intros EB'. destruct (HE 0) as (e & o & He & _); [destruct (fst k); [congruence|cbn; lia]|]. rewrite EB' in He. destruct He. }
    { exact FT. }
    { intros [b v] Hb. destruct (BT _ _ Hb) as ((Ib & _) & _). rewrite <- (legs_lens MT), LL in Ib. destruct b as [|b0 [|b1 [|b2 [|b3 [|]]]]]; cbn in Ib; rewrite ?andb_false_r in Ib; try discriminate.
      rewrite !andb_true_iff, !Nat.ltb_lt in Ib. destruct (HE b3) as (e' & o & E1 & E2 & E3 & E4 & _); [apply Ib|]. exists e', o. split; [exact E1|]. split; [|split; assumption]. rewrite E2. cbn [fst]. unfold block_quantity. rewrite QL. cbn. rewrite qop_e_r. reflexivity. }
    { intros M (m & n & _ & _ & _ & _ & E & _). apply H_svd. eauto. }
    { rewrite LT. cbn. rewrite Nat.mul_1_r. exact HZ. }
    destruct DC as (VU & Vd & VV & LK & ND & _ & B2 & _ & B4 & LU & Ld & LV & RU & Rd & RV & DU & Dd & DV & FU & Fd & FV & SU & Sd & SV & HF).
    rewrite LT in B2, B4, LU, LV, SU, SV, HF. cbn [firstn skipn map app] in B2, B4, LU, LV, SU, SV, HF. unfold sections in B2. cbn in B2, B4. rewrite Nat.mul_1_r in B2, B4.
    pose proof (imax_sbd (proj1 (proj1 HA)) (proj2 (proj2 HA))) as IL. rewrite EA in IL.
    assert (IK : length (fst k') <= imax) by (pose proof (IL k ltac:(cbn; tauto)); lia).
    assert (HU : den U DU).
    { split; [exact VU|]. split; [exact FU|]. apply sbd_imax; [apply VU|]. rewrite LU. intros l [<-|[<-|[<-|[<-|[]]]]]; try exact IK; apply IL; cbn; tauto. }
    assert (HV : den V DV).
    { split; [exact VV|]. split; [exact FV|]. apply sbd_imax; [apply VV|]. rewrite LV. intros l [<-|[<-|[]]]; try exact IK. apply (IL k); cbn; tauto. }
    destruct (scale_last HU LU Vd Ld Rd Fd) as (U' & DU' & EU' & LU' & HU' & RU' & VU'). rewrite LU in LU'.
    destruct (stored_conj HV) as (LC & HC). rewrite LV in LC. cbn [map] in LC. rewrite bdual_dual in LC.
    destruct (@stored_tdot_rule G R imax (conj V) B (d_map rconj DV) DB [0] [0] HC HB) as (B' & EB' & LB' & HB' & RB');
      [reflexivity|nodup|nodup|rewrite LC; inl|rewrite EB; inl|rewrite LC, EB; cbn; rewrite bdual_dual; reflexivity|rewrite LC; cbn; lia|rewrite EB; cbn; lia|].
    rewrite LC, EB in LB'. cbn in LB'.
    destruct (@stored_perm_rule G R imax U' DU' [0; 1; 3; 2] HU') as (A' & EA' & LA' & HA' & RA'); [rewrite LU'; reflexivity|nodup|rewrite LU'; inl|].
    rewrite LU' in LA'. cbn in LA'.
    exists A', B', (d_permute [0; 1; 3; 2] DU'), (d_tdot (d_map rconj DV) DB [0] [0]), k'.
    split; [unfold coalesce_step; rewrite ET; cbn [obind]; rewrite ES; cbn [obind]; rewrite EU'; cbn [obind]; rewrite EB'; cbn [obind]; rewrite EA'; reflexivity|].
    split; [exact HA'|]. split; [exact HB'|]. split; [exact LA'|]. split; [exact LB'|]. split; [rewrite RA', RU', RU; exact RT|].
    split; [rewrite RB'; change (b_rule (conj V)) with (qinv G (b_rule V)); rewrite RV, qinv_e; apply qop_e_l|]. split; [exact ND|]. split; [exact B2|]. split; [exact B4|].
    intros a i j i2 b j2 Ha Hi Hj.
    transitivity (sum c < bsz k', sum m < bsz k, rmul (dv (d_permute [0; 1; 3; 2] DU') [a; i; c; j]) (rmul (rconj (dv DV [m; c])) (dv DB [m; i2; b; j2]))).
    - apply sumf_ext. intros c _. rewrite (@tdot_24 (d_map rconj DV) DB _ _ _ _ _ _ _ _ _ SV SB). rewrite <- sumf_mul_l. reflexivity.
    - rewrite sumf_swap. apply sumf_ext. intros m Hm. apply in_seq in Hm. specialize (HF [a; i; j] [m]). cbn [app] in HF. rewrite DT in HF. rewrite HF.
      + rewrite <- sumf_mul_r. apply sumf_ext. intros c Hc. apply in_seq in Hc. change (dv (d_permute [0; 1; 3; 2] DU') [a; i; c; j]) with (dv DU' [a; i; j; c]). rewrite VU' by (rewrite ?bdual_size; lia). ring.
      + cbn. rewrite !(proj2 (Nat.ltb_lt _ _)) by assumption. reflexivity.
      + cbn. rewrite !(proj2 (Nat.ltb_lt _ _)) by lia. reflexivity.
  Qed.
End B.
