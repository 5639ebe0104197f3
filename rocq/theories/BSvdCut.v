(** Truncated decompositions of block tensors with any limits, provided no emptied section leaves the blocks out of order. *)
From Verif Require Import Base Quantity QuantityProofs FlatMap SpecFlatMap FlatMapProofs Ring Index SpecIndex IndexProofs LegsProofs Dense BTensor SpecBTensor BTensorProofs ArithProofs BmmThms
  SpecChain SpecEdges SpecSvd BSvd SvdDense Truncate SpecTruncate TruncateProofs BTrunc SpecBTrunc BTruncProofs BTruncThms BTruncDense BTruncMain SpecBSiteUpdate.
From Coq Require Import Permutation Sorting.Sorted.
Set Implicit Arguments.

Section M.
  Context {G : abgroup} {R : ring} {W : weights}.
  Notation t := (btensor G R).
  Notation entry := (list nat * dense R)%type.
  Add Ring Rr : (ring_th R).
  Variable gtb : R -> R -> bool.
  Variable lower : R -> R.
  Variable wt : R -> W.
  Hypothesis HO : total_order gtb.
  Variable dsvd : dense R -> dense R * dense R * dense R.
  Notation vals := (fun M => snd (fst (dsvd M))).
  Variable thr : W.
  Variables mn mx : Z.
  Hypothesis Hmn : (1 <= mn <= mx)%Z.
  Hypothesis low : forall x, gtb x rz = true -> gtb x (lower x) = true.
  Hypothesis low0 : lower rz = rz.

  Theorem svd_cut_ok (T : t) D s i0 : valid T -> nonempty T -> 0 < s < b_rank T -> dense_form T D -> in_range (dsh D) i0 = true -> dv D i0 <> rz ->
    (forall M, sector_matrix s T D M -> thin M (dsvd M) /\ descending gtb (entries (vals M)) /\ forall x, In x (entries (vals M)) -> gtb rz x = false) ->
    (Z.of_nat (prod_list (map (bsz G) (skipn s (blegs T)))) <= 2 ^ 63)%Z ->
    (forall U d V v, svd_split dsvd T s = Ok (U, d, V) -> tidy gtb d v U /\ tidy gtb d v V) ->
    exists U d V k DU Dd DV, svd_trunc gtb lower wt dsvd T s thr mn mx = Some (Ok (U, d, V)) /\
      (valid U /\ valid d /\ valid V) /\ (length (snd k) = length (fst k) /\ length (fst k) <= sections (firstn s (blegs T)) /\ length (fst k) <= sections (skipn s (blegs T))) /\
      (bsz G k <= prod_list (map (bsz G) (firstn s (blegs T))) /\ bsz G k <= prod_list (map (bsz G) (skipn s (blegs T)))) /\
      (blegs U = firstn s (blegs T) ++ [k] /\ blegs d = [neutral_leg k] /\ blegs V = map (@bdual G) (skipn s (blegs T)) ++ [k]) /\
      (b_rule U = b_rule T /\ b_rule d = qe G /\ b_rule V = qe G) /\
      (dense_form U DU /\ dense_form d Dd /\ dense_form V DV) /\
      (exists c, c < bsz G k /\ dv Dd [c] <> rz) /\
      ((forall M, sector_matrix s T D M -> isometries M (dsvd M)) ->
        orthonormal_on (fun c => dv Dd [c] <> rz) (map (bsz G) (firstn s (blegs T))) (bsz G k) DU /\ orthonormal_on (fun c => dv Dd [c] <> rz) (map (bsz G) (skipn s (blegs T))) (bsz G k) DV) /\
      ((forall M, sector_matrix s T D M -> real_entries (vals M)) -> real_entries Dd) /\
      ((forall l, wgtb (total wt l) thr = true <-> exists x, In x l /\ x <> rz) -> (Z.of_nat (prod_list (map (bsz G) (skipn s (blegs T)))) <= mx)%Z ->
        tensor_factors (map (bsz G) (firstn s (blegs T))) (map (bsz G) (skipn s (blegs T))) (bsz G k) D DU Dd DV /\
        ((forall e, In e (b_blocks T) -> exists e' o, In e' (b_blocks T) /\ block_quantity s T (fst e') = block_quantity s T (fst e) /\ in_range (dsh (snd e')) o = true /\ dv (snd e') o <> rz) ->
          (forall M, sector_matrix s T D M -> isometries M (dsvd M)) ->
          tensor_orthonormal (map (bsz G) (firstn s (blegs T))) (bsz G k) DU /\ tensor_orthonormal (map (bsz G) (skipn s (blegs T))) (bsz G k) DV)).
  Proof.
    intros VT HN Hs FD Hi0 NZ0 HM HBound HTI.
    assert (HB : b_blocks T <> []).
    { intros EB. apply NZ0. rewrite (proj1 FD) in Hi0. change (in_range (tots (legs T)) i0 = true) in Hi0. destruct (unplace_spec _ _ Hi0) as (H1 & H2 & H3).
      rewrite <- H3, (proj2 FD); [|rewrite <- (legs_lens (proj1 VT)); exact H1|exact H2]. unfold bentry. rewrite EB. reflexivity. }
    destruct (@svd_split_ok G R dsvd T D s VT HN Hs HB FD (fun M H => proj1 (HM M H))) as (U & d & V & k & E & DC & HI & HR & HSV).
    pose proof (decomposition_shapes dsvd DC) as (Vd & Rd & Sd & CU & CV & LU & LV & QU & QV & Qd).
    destruct DC as (VU & _ & VV & LK & NDK & B1 & B2 & BS1 & BS2 & _ & _ & _ & RU & Rud & RV & DU & Dd & DV & FU & Fd & FV & HF).
    (* the blocks of d *)
    assert (ND : NoDup (map fst (b_blocks d))) by (apply sorted_nodup, Vd).
    assert (BD : forall c x, In ([c], x) (b_blocks d) -> exists M, sector_matrix s T D M /\ holds_sector s T M /\ x = vals M).
    { intros c x Hx. destruct (d_block Vd Rd _ Hx) as (c' & E1 & E2 & _). cbn in E1. injection E1 as <-. rewrite Sd in E2. destruct (HSV c E2) as (M & M1 & M2 & M3). exists M. split; [exact M1|]. split; [exact M2|].
      apply (assoc_nodup (b_blocks d)) in Hx, M3; auto. congruence. }
    assert (BK : forall e, In e (b_blocks d) -> exists c M, fst e = [c] /\ c < length (b_ss d) /\ sector_matrix s T D M /\ holds_sector s T M /\ snd e = vals M).
    { intros (kk, x) He. destruct (d_block Vd Rd _ He) as (c & E1 & E2 & _). cbn in E1. subst kk. destruct (BD c x He) as (M & M1 & M2 & M3). exists c, M. auto. }
    assert (HD : forall e, In e (b_blocks d) -> descending gtb (entries (snd e))) by (intros e He; destruct (BK e He) as (c & M & _ & _ & M1 & _ & ->); apply HM; exact M1).
    assert (POS : forall x, In x (all_values d) -> gtb rz x = false).
    { intros x Hx. unfold all_values in Hx. apply in_concat in Hx as (l & Hl & Hx). apply in_map_iff in Hl as (e & <- & He). destruct (BK e He) as (c & M & _ & _ & M1 & _ & EM). rewrite EM in Hx. apply (HM M M1). exact Hx. }
    assert (NZV : (forall e, In e (b_blocks T) -> exists e' o, In e' (b_blocks T) /\ block_quantity s T (fst e') = block_quantity s T (fst e) /\ in_range (dsh (snd e')) o = true /\ dv (snd e') o <> rz) ->
      forall e, In e (b_blocks d) -> exists x, In x (entries (snd e)) /\ x <> rz).
    { intros HNZ. intros e He. destruct (BK e He) as (c & M & _ & _ & M1 & (b & v & Hb & HH) & ->). destruct (HNZ _ Hb) as ((b', v') & o & Hb' & QB & Ho & No). cbn [fst snd] in Ho, No, QB. destruct (HH b' v' Hb' QB o Ho) as (i & Hi & Ei).
        destruct (HM M M1) as (HT & _). destruct M1 as (m & n & _ & _ & _ & _ & SM & _). unfold thin in HT. destruct (dsvd M) as ((bU, bd), bV) eqn:EM. cbn [fst snd]. destruct (HT m n SM) as (_ & Sbd & _ & HP).
        destruct (existsb (fun x => negb (reqb x rz)) (entries bd)) eqn:EX; [apply existsb_exists in EX as (x & Hx & Nx); exists x; split; [exact Hx|]; intros ->; rewrite (proj2 (reqb_spec R rz rz) eq_refl) in Nx; discriminate|].
        exfalso. apply No. rewrite <- Ei. rewrite SM in Hi. destruct i as [|p [|q [|]]]; try discriminate; try (cbn in Hi; rewrite ?andb_false_r in Hi; discriminate). cbn in Hi. rewrite andb_true_r, andb_true_iff, !Nat.ltb_lt in Hi.
        rewrite HP by tauto. apply sumf_zero. intros z Hz. apply in_seq in Hz. assert (Z0 : dv bd [z] = rz); [|rewrite Z0; ring].
        assert (Iz : In (dv bd [z]) (entries bd)) by (unfold entries; apply in_map; apply idxs_In; rewrite Sbd; cbn; rewrite (proj2 (Nat.ltb_lt _ _)) by lia; reflexivity).
        destruct (reqb (dv bd [z]) rz) eqn:ER; [apply (reqb_spec R); exact ER|]. exfalso. assert (X : existsb (fun x => negb (reqb x rz)) (entries bd) = true) by (apply existsb_exists; exists (dv bd [z]); rewrite ER; auto). congruence. }
    destruct HF as (SU & SDd & SV & HP).
    assert (VALIN : forall e x, In e (b_blocks d) -> In x (entries (snd e)) -> In x (all_values d)) by (intros e x He Hx; unfold all_values; apply in_concat; exists (entries (snd e)); split; [apply in_map_iff; eauto|exact Hx]).
    assert (VALS : forall c, c < bsz G k -> dv Dd [c] = rz \/ In (dv Dd [c]) (all_values d)).
    { intros c Hc. destruct (@at_section (b_ss d) c) as (b & o & Hb & Ho & ->); [rewrite Sd; exact Hc|]. destruct (assoc leqb [b] (b_blocks d)) as [z|] eqn:EA; [right|left; apply (@d_none G R d Vd Rd Dd b o Fd EA Hb Ho)].
      destruct (@d_at G R d Vd Rd Dd b o z Fd EA Ho) as (EQ & EL & _). rewrite EQ. apply assoc_nodup in EA; auto. apply (VALIN _ _ EA). cbn [snd]. apply nth_In. lia. }
    assert (NZA : exists y, In y (all_values d) /\ y <> rz).
    { assert (ET : dsh D = map (bsz G) (firstn s (blegs T)) ++ map (bsz G) (skipn s (blegs T))).
      { rewrite (proj1 FD), <- map_app, firstn_skipn. unfold blegs. symmetry. apply combine_tots. rewrite (legs_length (proj1 VT)), (qlegs_length (proj1 VT)). reflexivity. }
      assert (Ls : length (map (bsz G) (firstn s (blegs T))) = s).
      { rewrite map_length, firstn_length. unfold blegs. rewrite combine_length, (legs_length (proj1 VT)), (qlegs_length (proj1 VT)). lia. }
      rewrite ET in Hi0. assert (Li : s <= length i0) by (apply in_range_length in Hi0; rewrite app_length in Hi0; lia).
      rewrite <- (firstn_skipn s i0) in Hi0, NZ0. rewrite in_range_app in Hi0 by (rewrite firstn_length; lia). apply andb_true_iff in Hi0 as (P1 & P2). rewrite (HP _ _ P1 P2) in NZ0.
      destruct (existsb (fun c => negb (reqb (dv Dd [c]) rz)) (seq 0 (bsz G k))) eqn:EX.
      - apply existsb_exists in EX as (c & Hc & Nc). apply in_seq in Hc. assert (Z : dv Dd [c] <> rz) by (intros Q; rewrite (proj2 (reqb_spec R _ _) Q) in Nc; discriminate). destruct (VALS c) as [Q|Q]; [lia|contradiction|eauto].
      - exfalso. apply NZ0. apply sumf_zero. intros c Hc. destruct (reqb (dv Dd [c]) rz) eqn:Q; [apply reqb_spec in Q; rewrite Q; ring|]. exfalso. assert (X : existsb (fun c => negb (reqb (dv Dd [c]) rz)) (seq 0 (bsz G k)) = true) by (apply existsb_exists; exists c; rewrite Q; auto). congruence. }
    assert (LEN : length (all_values d) <= prod_list (map (bsz G) (skipn s (blegs T)))).
    { pose proof (values_le Vd Rd) as VL. rewrite Sd in VL. unfold bsz in BS2 |- *. lia. }
    destruct (@truncate_ok G R W gtb lower wt HO U d V thr mn mx Vd Rd HD CU CV) as (vs & n & U' & d' & V' & P & DV0 & K & K1 & K2 & K3 & ET & Td & Vd' & He' & EV & TU & TV & TiU & TiV); [|lia|exact Hmn|].
    { destruct NZA as (y & Hy & _). destruct (all_values d); [destruct Hy|cbn; lia]. }
    pose proof (Permutation_length P) as PL.
    set (x := nth (n - 1) vs rz) in *. set (v := lower x) in *.
    destruct (HTI U d V v E) as (TI1 & TI2). specialize (TiU TI1). specialize (TiV TI2).
    assert (IX : In x (all_values d)) by (eapply Permutation_in; [exact P|]; apply nth_In; lia).
    (* a value not below the last one kept, other than zero, is above the bound *)
    assert (UP : forall y, y <> rz -> In y (all_values d) -> gtb x y = false -> gtb y v = true).
    { intros y Ny Hy Gxy. assert (Gy : gtb y rz = true) by (destruct (gtb y rz) eqn:Q; auto; exfalso; apply Ny, (gt_total HO); auto).
      destruct (reqb x rz) eqn:Qx; [apply reqb_spec in Qx; unfold v; rewrite Qx, low0; exact Gy|]. assert (Nx : x <> rz) by (intros Q; rewrite (proj2 (reqb_spec R _ _) Q) in Qx; discriminate).
      assert (GX : gtb x rz = true) by (destruct (gtb x rz) eqn:EG; auto; exfalso; apply Nx; apply (gt_total HO); auto). pose proof (low GX) as GV. fold v in GV.
      destruct (gtb y x) eqn:Gyx; [apply (gt_trans HO) with (y := x); auto|]. rewrite <- (gt_total HO x y Gxy Gyx). exact GV. }
    set (l' := new_leg gtb d v (b_ss d)).
    assert (LU' : legs U' = map fst (firstn s (blegs T)) ++ [l'] /\ qlegs U' = map snd (firstn s (blegs T)) ++ [snd k]).
    { destruct TU as (_ & _ & _ & q1 & q2 & _). rewrite q1, q2, LU, QU, removelast_last, last_last, <- Sd. auto. }
    assert (LV' : legs V' = map fst (skipn s (blegs T)) ++ [l'] /\ qlegs V' = map (map (qinv G)) (map snd (skipn s (blegs T))) ++ [snd k]).
    { destruct TV as (_ & _ & _ & q1 & q2 & _). rewrite q1, q2, LV, QV, removelast_last, last_last, <- Sd. auto. }
    assert (Ld' : legs d' = [l'] /\ qlegs d' = [map (fun _ => qe G) (snd k)]).
    { destruct Td as (_ & _ & _ & q1 & q2 & _). rewrite q1, q2, Qd, (d_legs Vd Rd). auto. }
    assert (LL : length l' = length (fst k)) by (unfold l'; rewrite new_leg_length, Sd; reflexivity).
    destruct (dense_of TiU) as (DU' & FU'). destruct (dense_of Vd') as (Dd' & Fd'). destruct (dense_of TiV) as (DV' & FV').
    assert (RDU : removelast (dsh DU) = map (bsz G) (firstn s (blegs T))) by (rewrite SU; apply removelast_last).
    assert (RDV : removelast (dsh DV) = map (bsz G) (skipn s (blegs T))) by (rewrite SV; apply removelast_last).
    assert (ORT : forall (P : nat -> Prop) (X X' : t) DX DX' L, carries_d d X -> legs X = L ++ [b_ss d] -> legs X' = L ++ [l'] -> truncated gtb d v X X' -> valid X' -> dense_form X DX -> dense_form X' DX' ->
      (forall b o, b < length l' -> o < nth b l' 0 -> P (sum_list (firstn b l') + o) -> ~ emptied gtb d v b) ->
      tensor_orthonormal (removelast (dsh DX)) (sum_list (b_ss d)) DX -> orthonormal_on P (map sum_list L) (sum_list l') DX').
    { intros PP X X' DX DX' L CX EX EX' TX VX' FX FX' NE IX' c c' Hc Hc' Pc Pc'. destruct (@at_section l' c Hc) as (b & o & Hb & Ho & ->). destruct (@at_section l' c' Hc') as (b' & o' & Hb' & Ho' & ->).
      assert (RS : removelast (dsh DX') = map sum_list L) by (rewrite (proj1 FX'), EX', map_app; cbn [map]; apply removelast_last). rewrite <- RS. pose proof (NE b o Hb Ho Pc) as NB. pose proof (NE b' o' Hb' Ho' Pc') as NB'. unfold l' in Hb, Hb'. rewrite new_leg_length in Hb, Hb'.
      unfold l'. rewrite (@cut_orthonormal G R gtb HO d v Vd Rd HD X X' DX DX' CX TX VX' FX FX' IX' b o b' o' Hb Hb' Ho Ho' NB NB').
      fold l'. destruct (Nat.eqb_spec (sum_list (firstn b l') + o) (sum_list (firstn b' l') + o')) as [E1|E1].
      - assert (Z1 : located l' (sum_list (firstn b l') + o) b o) by (split; [unfold l'; rewrite new_leg_length; exact Hb|split; auto]). assert (Z2 : located l' (sum_list (firstn b l') + o) b' o') by (split; [unfold l'; rewrite new_leg_length; exact Hb'|split; auto]).
        apply find_section_unique in Z1, Z2. rewrite Z1 in Z2. injection Z2 as -> ->. rewrite !Nat.eqb_refl. reflexivity.
      - destruct (Nat.eqb_spec b b') as [->|]; auto. destruct (Nat.eqb_spec o o') as [->|]; auto. congruence. }
    assert (SZ1 : map (bsz G) (firstn s (blegs T)) = map sum_list (map fst (firstn s (blegs T)))) by (rewrite map_map; reflexivity).
    assert (SZ2 : map (bsz G) (skipn s (blegs T)) = map sum_list (map fst (skipn s (blegs T)))) by (rewrite map_map; reflexivity).
    assert (ISO : forall PP : nat -> Prop, (forall b o, b < length l' -> o < nth b l' 0 -> PP (sum_list (firstn b l') + o) -> ~ emptied gtb d v b) -> (forall M, sector_matrix s T D M -> isometries M (dsvd M)) ->
      orthonormal_on PP (map (bsz G) (firstn s (blegs T))) (sum_list l') DU' /\ orthonormal_on PP (map (bsz G) (skipn s (blegs T))) (sum_list l') DV').
    { intros PP HPP HIS. destruct (HI HIS DU DV FU FV) as (I1 & I2). unfold bsz at 2 in I1. unfold bsz at 2 in I2. rewrite <- Sd in I1, I2. rewrite <- RDU in I1. rewrite <- RDV in I2. rewrite SZ1, SZ2. rewrite <- Sd in LU, LV. split.
      - apply (ORT PP U U' DU DU'); auto; apply LU'.
      - apply (ORT PP V V' DV DV'); auto; apply LV'. }
    exists U', d', V', (l', snd k), DU', Dd', DV'. split; [unfold svd_trunc; rewrite E; cbn [obind]; exact ET|]. split; [auto|]. cbn [fst snd]. rewrite LL. split; [auto|].
    pose proof (new_leg_total gtb lower dsvd low v Vd Rd) as NLE. fold l' in NLE. rewrite Sd in NLE. split; [unfold bsz at 1 3; unfold bsz at 1 in BS1; unfold bsz at 1 in BS2; cbn [fst]; lia|]. split.
    { unfold blegs at 1 3 4. rewrite (proj1 LU'), (proj2 LU'), (proj1 LV'), (proj2 LV'), (proj1 Ld'), (proj2 Ld'). split; [apply combine_snoc|]. split; [reflexivity|].
      replace (map fst (skipn s (blegs T))) with (map fst (map (@bdual G) (skipn s (blegs T)))) by (rewrite map_map; apply map_ext; intros []; reflexivity). replace (map (map (qinv G)) (map snd (skipn s (blegs T)))) with (map snd (map (@bdual G) (skipn s (blegs T)))) by (rewrite !map_map; apply map_ext; intros []; reflexivity). apply combine_snoc. }
    split; [rewrite (proj1 TU), (proj1 Td), (proj1 TV); auto|]. split; [auto|].
    assert (EMZ : forall b o, b < length l' -> o < nth b l' 0 -> dv Dd' [sum_list (firstn b l') + o] <> rz -> ~ emptied gtb d v b).
    { intros b o Hb Ho Hz Hem. apply Hz. unfold l' in Hb. rewrite new_leg_length in Hb. apply (@cut_values G R gtb HO d v Vd Rd HD d' Dd Dd' b o Td Vd' He' Fd Fd' Hb Ho). exact Hem. }
    assert (Rd' : b_rank d' = 1) by (rewrite (proj1 (proj2 Td)); exact Rd).
    split.
    { (* the largest value is kept *)
      destruct NZA as (y & Hy & Ny). assert (Iy : In (nth 0 vs rz) (all_values d)) by (eapply Permutation_in; [exact P|]; apply nth_In; lia).
      assert (Iv : In y vs) by (eapply Permutation_in; [apply Permutation_sym; exact P|exact Hy]). apply (In_nth vs y rz) in Iv as (q & Hq & Eq).
      assert (N0 : nth 0 vs rz <> rz).
      { intros Q0. apply Ny. destruct (Nat.eq_dec q 0) as [->|Nq]; [congruence|]. assert (Gq : gtb y (nth 0 vs rz) = false) by (rewrite <- Eq; apply DV0; lia). rewrite Q0 in Gq. apply (gt_total HO); auto. }
      assert (G0 : gtb (nth 0 vs rz) v = true).
      { apply UP; auto. destruct (Nat.eq_dec (n - 1) 0) as [Q|Q]; [unfold x; rewrite Q; apply (gt_irrefl HO)|]. apply DV0; lia. }
      assert (I' : In (nth 0 vs rz) (all_values d')) by (rewrite EV; apply filter_In; auto). unfold all_values in I'. apply in_concat in I' as (es & Hes & I'). apply in_map_iff in Hes as ((kk, z) & <- & Hz). cbn [snd] in I'.
      apply (In_nth (entries z) _ rz) in I' as (o & Ho & Eo). destruct (d_block Vd' Rd' _ Hz) as (b & E1 & E2 & E3). cbn [fst snd] in E1, E3. subst kk.
      assert (Lz : length (entries z) = nth b (b_ss d') 0) by (unfold entries; rewrite map_length, idxs_length, E3; cbn; lia).
      assert (EA : assoc leqb [b] (b_blocks d') = Some z) by (apply assoc_nodup; [apply sorted_nodup, Vd'|exact Hz]).
      destruct (@d_at G R d' Vd' Rd' Dd' b o z Fd' EA ltac:(lia)) as (EQ & _ & _). assert (SSd : b_ss d' = l') by (pose proof (d_legs Vd' Rd') as Q; rewrite (proj1 Ld') in Q; injection Q as <-; reflexivity).
      exists (sum_list (firstn b (b_ss d')) + o). split; [|rewrite EQ, Eo; exact N0]. unfold bsz. cbn [fst]. rewrite <- SSd. apply section_lt; [exact E2|lia]. }
    split; [intros HIS; unfold bsz at 2 4; cbn [fst]; apply ISO; auto|]. split.
    { intros HRE. pose proof (HR HRE Dd Fd) as RE. intros i Hi. rewrite (proj1 Fd'), (proj1 Ld') in Hi. destruct i as [|c [|]]; try discriminate; [|cbn in Hi; rewrite andb_false_r in Hi; discriminate]. cbn in Hi. rewrite andb_true_r in Hi. apply Nat.ltb_lt in Hi.
      destruct (@at_section l' c Hi) as (b & o & Hb & Ho & ->). unfold l' in Hb. rewrite new_leg_length in Hb. destruct (@cut_values G R gtb HO d v Vd Rd HD d' Dd Dd' b o Td Vd' He' Fd Fd' Hb Ho) as (CK & CE). fold l' in CK, CE.
      destruct (kept gtb d v b) as [[|m]|] eqn:EK.
      - rewrite (CE EK). apply rconj_0.
      - rewrite CK by (unfold emptied; congruence). apply RE. rewrite SDd. cbn. unfold bsz. rewrite <- Sd. rewrite (proj2 (Nat.ltb_lt _ _)); [reflexivity|]. apply section_lt; [exact Hb|]. pose proof (@new_leg_le G R gtb HO d v Vd Rd HD b Hb). fold l' in H. lia.
      - rewrite CK by (unfold emptied; congruence). apply RE. rewrite SDd. cbn. unfold bsz. rewrite <- Sd. rewrite (proj2 (Nat.ltb_lt _ _)); [reflexivity|]. apply section_lt; [exact Hb|]. pose proof (@new_leg_le G R gtb HO d v Vd Rd HD b Hb). fold l' in H. lia. }
    intros exact_cut Hmx.
    assert (TAIL : forall y, In y (skipn n vs) -> y = rz).
    { intros y Hy. destruct (reqb y rz) eqn:ER; [apply (reqb_spec R); exact ER|]. exfalso. assert (Ny : y <> rz) by (intros ->; rewrite (proj2 (reqb_spec R rz rz) eq_refl) in ER; discriminate).
      destruct (Nat.lt_ge_cases n (length vs)) as [L|L]; [|rewrite skipn_all2 in Hy by lia; destruct Hy]. assert (X : Z.of_nat n = mx); [|lia].
      apply K2; [exact L|]. exists vs. split; [left; reflexivity|]. unfold lost_after. apply exact_cut. eauto. }
    assert (KEEP : forall y, In y (all_values d) -> y <> rz -> gtb y v = true).
    { intros y Hy Ny. assert (Iv : In y vs) by (eapply Permutation_in; [apply Permutation_sym; exact P|exact Hy]). apply (In_nth vs y rz) in Iv as (i & Hi & Ei).
      assert (Ln : i < n). { destruct (Nat.lt_ge_cases i n) as [|L]; [assumption|]. exfalso. apply Ny, TAIL. rewrite <- Ei. replace i with (n + (i - n)) by lia. rewrite <- (firstn_skipn n vs) at 1. rewrite app_nth2; rewrite firstn_length, Nat.min_l by lia; [|lia]. apply nth_In. rewrite skipn_length. lia. }
      apply UP; auto. destruct (Nat.eq_dec i (n - 1)) as [->|]; [rewrite <- Ei; apply (gt_irrefl HO)|]. rewrite <- Ei. apply DV0; lia. }
    assert (DROP : forall y, In y (all_values d) -> gtb y v = false -> y = rz).
    { intros y Hy Gy. destruct (reqb y rz) eqn:ER; [apply (reqb_spec R); exact ER|]. exfalso. rewrite KEEP in Gy; [discriminate|exact Hy|]. intros ->. rewrite (proj2 (reqb_spec R rz rz) eq_refl) in ER. discriminate. }
    split.
    - split; [|split; [|split]].
      + rewrite (proj1 FU'), (proj1 LU'), map_app, map_map. reflexivity.
      + rewrite (proj1 Fd'), (proj1 Ld'). reflexivity.
      + rewrite (proj1 FV'), (proj1 LV'), map_app, map_map. reflexivity.
      + intros i j Hi Hj. rewrite (HP i j Hi Hj). unfold bsz at 2. cbn [fst]. symmetry.
        etransitivity; [apply (@cut_product G R gtb HO d v Vd Rd HD U V d' U' V' DU Dd DV DU' Dd' DV' i j); auto; [rewrite RDU; exact Hi|rewrite RDV; exact Hj]|].
        unfold restricted_product, bsz. rewrite Sd. apply sumf_ext. intros c Hc. apply in_seq in Hc. destruct (gtb (dv Dd [c]) v) eqn:EG; [reflexivity|].
        assert (Z0 : dv Dd [c] = rz); [|rewrite Z0; ring]. destruct (VALS c) as [Q|Q]; [unfold bsz; lia|exact Q|]. apply DROP; auto.
    - intros HNZ HIS. assert (NE : forall b, ~ emptied gtb d v b).
      { intros b Hb. unfold emptied, kept in Hb. destruct (assoc leqb [b] (b_blocks d)) as [z|] eqn:EA; [|discriminate]. cbn in Hb. injection Hb as Hb. apply assoc_nodup in EA; auto. destruct (NZV HNZ _ EA) as (y & Hy & Ny). cbn [snd] in Hy.
        pose proof (KEEP y (VALIN _ _ EA Hy) Ny) as Gy. unfold above in Hb. assert (IF : In y (filter (fun x => gtb x v) (entries z))) by (apply filter_In; auto). destruct (filter _ (entries z)); [destruct IF|discriminate]. }
      destruct (ISO (fun _ => True) (fun b o _ _ _ => NE b) HIS) as (O1 & O2). split; intros c c' Hc Hc'; [apply O1|apply O2]; auto.
  Qed.
End M.
