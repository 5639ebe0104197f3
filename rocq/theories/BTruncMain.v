(** The truncation of block decompositions: number of values, products, and decompositions of tensors. *)
From Verif Require Import Base Quantity QuantityProofs FlatMap SpecFlatMap FlatMapProofs Ring Index SpecIndex IndexProofs LegsProofs Dense BTensor SpecBTensor BTensorProofs ArithProofs BmmThms
  SpecChain SpecEdges SpecSvd BSvd SvdDense Truncate SpecTruncate TruncateProofs BTrunc SpecBTrunc BTruncProofs BTruncThms BTruncDense.
From Coq Require Import Permutation Sorting.Sorted.
Set Implicit Arguments.

Section M.
  Context {G : abgroup} {R : ring} {W : weights}.
  Notation t := (btensor G R).
  Notation entry := (list nat * dense R)%type.
  Add Ring Rr : (ring_th R).
  Variable gtb : R -> R -> bool.
  Variable lower : R -> R.
  Variable wt : R -> W.
  Hypothesis HO : total_order gtb.

  (** Truncated factors: the product keeps the values above the bound, surviving columns stay orthonormal. *)
  Theorem truncate_product (U d V : t) thr mn mx : valid d -> b_rank d = 1 -> (forall e, In e (b_blocks d) -> descending gtb (entries (snd e))) ->
    carries_d d U -> carries_d d V -> 1 <= length (all_values d) -> (Z.of_nat (length (all_values d)) <= 2 ^ 63)%Z -> (1 <= mn <= mx)%Z ->
    exists x U' d' V', In x (all_values d) /\ truncate gtb lower wt (U, d, V) thr mn mx = Some (Ok (U', d', V')) /\
      let v := lower x in let l' := new_leg gtb d v (b_ss d) in
      (tidy gtb d v U -> tidy gtb d v V -> forall DU Dd DV DU' Dd' DV' i j, dense_form U DU -> dense_form d Dd -> dense_form V DV -> dense_form U' DU' -> dense_form d' Dd' -> dense_form V' DV' ->
        in_range (removelast (dsh DU)) i = true -> in_range (removelast (dsh DV)) j = true ->
        sumf R (fun c => rmul (rmul (dv DU' (i ++ [c])) (dv Dd' [c])) (rconj (dv DV' (j ++ [c])))) (seq 0 (sum_list l')) = restricted_product gtb (sum_list (b_ss d)) DU Dd DV v i j) /\
      forall X X', (X = U /\ X' = U') \/ (X = V /\ X' = V') -> tidy gtb d v X -> forall DX DX', dense_form X DX -> dense_form X' DX' -> tensor_orthonormal (removelast (dsh DX)) (sum_list (b_ss d)) DX ->
        forall b o b' o', b < length l' -> b' < length l' -> o < nth b l' 0 -> o' < nth b' l' 0 -> ~ emptied gtb d v b -> ~ emptied gtb d v b' ->
        sumf R (fun i => rmul (rconj (dv DX' (i ++ [sum_list (firstn b l') + o]))) (dv DX' (i ++ [sum_list (firstn b' l') + o']))) (idxs (removelast (dsh DX'))) = if (b =? b') && (o =? o') then ro else rz.
  Proof.
    intros Vd Rd Hd HU HV HL HB Hm. destruct (@truncate_ok G R W gtb lower wt HO U d V thr mn mx Vd Rd Hd HU HV HL HB Hm) as (vs & k & U' & d' & V' & P & D & K & _ & _ & _ & E & Cd & Vd' & He & _ & CU & CV & TU & TV).
    exists (nth (k - 1) vs rz), U', d', V'. split; [eapply Permutation_in; [exact P|]; apply nth_In; lia|]. split; [exact E|]. cbn zeta. split.
    - intros TU1 TV1 DU Dd DV DU' Dd' DV' i j FU Fd FV FU' Fd' FV' Hi Hj. eapply (@cut_product G R gtb HO d _ Vd Rd Hd U V d' U' V'); eauto.
    - intros X X' HX TX DX DX' FX FX' HI b o b' o' Hb Hb' Ho Ho' E1 E2. rewrite new_leg_length in Hb, Hb'. destruct HX as [(-> & ->)|(-> & ->)].
      + eapply (@cut_orthonormal G R gtb HO d _ Vd Rd Hd U U'); eauto.
      + eapply (@cut_orthonormal G R gtb HO d _ Vd Rd Hd V V'); eauto.
  Qed.

  (** The number of values kept and the weight dropped. *)
  Theorem truncate_count (U d V : t) thr mn mx : valid d -> b_rank d = 1 -> (forall e, In e (b_blocks d) -> descending gtb (entries (snd e))) ->
    carries_d d U -> carries_d d V -> 1 <= length (all_values d) -> (Z.of_nat (length (all_values d)) <= 2 ^ 63)%Z -> (1 <= mn <= mx)%Z ->
    wgtb wz thr = false -> (forall x, In x (all_values d) -> gtb x (lower x) = true) ->
    exists v U' d' V', truncate gtb lower wt (U, d, V) thr mn mx = Some (Ok (U', d', V')) /\ all_values d' = filter (fun x => gtb x v) (all_values d) /\
      1 <= length (all_values d') /\ (Z.min mn (Z.of_nat (length (all_values d))) <= Z.of_nat (length (all_values d')))%Z /\
      (wgtb (total wt (filter (fun x => negb (gtb x v)) (all_values d))) thr = true -> (mx <= Z.of_nat (length (all_values d')))%Z) /\
      (NoDup (all_values d) -> (forall x y, In x (all_values d) -> In y (all_values d) -> gtb x y = true -> gtb y (lower x) = false) -> (Z.of_nat (length (all_values d')) <= mx)%Z).
  Proof.
    intros Vd Rd Hd HU HV HL HB Hm Ht Hlow. destruct (@truncate_ok G R W gtb lower wt HO U d V thr mn mx Vd Rd Hd HU HV HL HB Hm) as (vs & k & U' & d' & V' & P & D & K & K1 & K2 & _ & E & Cd & Vd' & He & EV & _).
    set (x := nth (k - 1) vs rz) in *. assert (Ix : In x (all_values d)) by (eapply Permutation_in; [exact P|]; apply nth_In; lia).
    exists (lower x), U', d', V'. split; [exact E|]. split; [exact EV|]. rewrite EV. fold (above gtb (lower x) (all_values d)).
    destruct (@count_ok R W gtb lower wt HO (all_values d) vs k thr mn mx P D K K1 K2 Ht) as (C1 & C2). fold x in C1, C2. destruct (C1 (Hlow x Ix)) as (C3 & C4). split; [lia|]. split; [exact C3|]. split.
    - intros Hw. rewrite <- (C4 Hw). assert (EA : above gtb (lower x) (all_values d) = above gtb (lower x) vs) by (unfold above; apply Permutation_length, filter_perm, Permutation_sym, P).
      rewrite EA. apply inj_le. apply (@above_ge R W gtb lower wt HO (lower x) vs k); auto.
    - intros ND Hs. apply C2. intros Hk. apply Hs; auto.
      + eapply Permutation_in; [exact P|]. apply nth_In. lia.
      + assert (Ng : gtb (nth k vs rz) x = false) by (apply D; lia). destruct (gtb x (nth k vs rz)) eqn:E1; auto. exfalso. pose proof (gt_total HO _ _ E1 Ng) as Eq.
        assert (N2 : NoDup vs) by (eapply Permutation_NoDup; [apply Permutation_sym; exact P|exact ND]). pose proof (proj1 (NoDup_nth vs rz) N2 (k - 1) k ltac:(lia) ltac:(lia) Eq). lia.
  Qed.

  (** No section emptied: the truncated factors are valid and the new dimension is a dimension like the old one. *)
  Section Lossless.
    Variable dsvd : dense R -> dense R * dense R * dense R.
    Notation vals := (fun M => snd (fst (dsvd M))).

    Lemma decomposition_shapes s (T U d V : t) D k : decomposition s T D U d V k -> valid d /\ b_rank d = 1 /\ b_ss d = fst k /\ carries_d d U /\ carries_d d V /\
      legs U = map fst (firstn s (blegs T)) ++ [fst k] /\ legs V = map fst (skipn s (blegs T)) ++ [fst k] /\ qlegs U = map snd (firstn s (blegs T)) ++ [snd k] /\ qlegs V = map (map (qinv G)) (map snd (skipn s (blegs T))) ++ [snd k] /\ qlegs d = [map (fun _ => qe G) (snd k)].
    Proof.
      intros (VU & Vd & VV & LK & _ & _ & _ & _ & _ & BU & Bd & BV & _).
      assert (FL : forall X : t, valid X -> legs X = map fst (blegs X) /\ qlegs X = map snd (blegs X)).
      { intros X VX. unfold blegs. pose proof (legs_length (proj1 VX)) as L1. pose proof (qlegs_length (proj1 VX)) as L2. revert L1 L2. generalize (legs X) (qlegs X) (b_rank X). clear. induction l as [|a l IH]; intros [|b m] [|n] L1 L2; try discriminate; auto. cbn in *. destruct (IH m n) as (<- & <-); auto. }
      destruct (FL _ VU) as (U1 & U2). destruct (FL _ Vd) as (d1 & d2). destruct (FL _ VV) as (V1 & V2). rewrite BU, map_app in U1, U2. rewrite Bd in d1, d2. rewrite BV, map_app, map_map in V1, V2. cbn [map neutral_leg fst snd] in *.
      assert (RX : forall X : t, valid X -> length (legs X) = b_rank X) by (intros X VX; apply legs_length, VX).
      assert (Rd : b_rank d = 1) by (rewrite <- (RX d Vd), d1; reflexivity). assert (Sd : b_ss d = fst k) by (pose proof (d_legs Vd Rd) as E; rewrite d1 in E; injection E as ->; reflexivity).
      split; [exact Vd|]. split; [exact Rd|]. split; [exact Sd|]. split; [|split].
      - split; [exact VU|]. split; [rewrite <- (RX U VU), U1, app_length; cbn; lia|]. rewrite U1, last_last. auto.
      - split; [exact VV|]. split; [rewrite <- (RX V VV), V1, app_length; cbn; lia|]. rewrite V1, last_last. auto.
      - split; [exact U1|]. split; [rewrite V1; f_equal; apply map_ext; intros []; reflexivity|]. split; [exact U2|]. split; [rewrite V2, map_map; f_equal; apply map_ext; intros []; reflexivity|exact d2].
    Qed.

    (** The weight of a list exceeds the threshold when a value differs from zero and only then; lowering a positive value
        gives a smaller one. *)
    Variable thr : W.
    Hypothesis exact_cut : forall l, wgtb (total wt l) thr = true <-> exists x, In x l /\ x <> rz.
    Hypothesis low : forall x, gtb x rz = true -> gtb x (lower x) = true.

    Lemma combine_snoc A B (L : list (A * B)) a b : combine (map fst L ++ [a]) (map snd L ++ [b]) = L ++ [(a, b)].
    Proof. induction L as [|(x, y) L IH]; cbn; [reflexivity|]. f_equal. exact IH. Qed.
    Lemma at_section l c : c < sum_list l -> exists b o, b < length l /\ o < nth b l 0 /\ c = sum_list (firstn b l) + o.
    Proof. intros H. destruct (find_section_spec l H) as (H1 & H2 & H3). eauto. Qed.

    (** No more values than the size of the dimension. *)
    Lemma values_le (d : t) : valid d -> b_rank d = 1 -> length (all_values d) <= sum_list (b_ss d).
    Proof.
      intros Vd Rd. assert (NK : NoDup (map (fun e => section_of e) (b_blocks d))).
      { pose proof (sorted_nodup (proj2 (proj2 Vd))) as ND. assert (X : forall l, incl l (b_blocks d) -> NoDup (map fst l) -> NoDup (map section_of l)); [|apply (X (b_blocks d)); [apply incl_refl|exact ND]].
        induction l as [|x l IH]; intros HI HN; [constructor|]. cbn in HN |- *. inversion HN as [|? ? N1 N2]; subst. constructor; [|apply IH; [intros y Hy; apply HI; right; exact Hy|exact N2]].
        intros C. apply in_map_iff in C as (y & E & Hy). apply N1. apply in_map_iff. exists y. split; [|exact Hy]. destruct (d_block Vd Rd _ (HI x (or_introl eq_refl))) as (c & E1 & _). destruct (d_block Vd Rd _ (HI y (or_intror Hy))) as (c' & E2 & _). unfold section_of in E. rewrite E1, E2 in *. cbn in E. congruence. }
      assert (IK : incl (map section_of (b_blocks d)) (seq 0 (length (b_ss d)))).
      { intros c Hc. apply in_map_iff in Hc as (x & <- & Hx). destruct (d_block Vd Rd _ Hx) as (c & E1 & E2 & _). unfold section_of. rewrite E1. cbn. apply in_seq. lia. }
      pose proof (SvdPieces.sum_sub (fun i => nth i (b_ss d) 0) NK IK) as H. rewrite SvdPieces.sum_nth_seq in H. etransitivity; [|exact H]. unfold all_values.
      assert (X : forall l, incl l (b_blocks d) -> length (concat (map (fun e => entries (snd e)) l)) <= sum_list (map (fun i => nth i (b_ss d) 0) (map section_of l))); [|apply X, incl_refl].
      induction l as [|x l IH]; intros HI; [cbn; lia|]. cbn [map concat]. rewrite app_length. change (sum_list (?a :: ?l)) with (a + sum_list l).
      assert (Y : length (entries (snd x)) = nth (section_of x) (b_ss d) 0); [|specialize (IH (fun y Hy => HI y (or_intror Hy))); lia].
      destruct (d_block Vd Rd _ (HI x (or_introl eq_refl))) as (c & E1 & E2 & E3). unfold section_of. rewrite E1. cbn [last]. unfold entries. rewrite map_length, idxs_length. rewrite E3. cbn. lia.
    Qed.
    Lemma new_leg_total (d : t) v : valid d -> b_rank d = 1 -> sum_list (new_leg gtb d v (b_ss d)) <= sum_list (b_ss d).
    Proof.
      intros Vd Rd. refine (eq_ind _ (fun z => _ <= z) _ _ (SvdPieces.sum_nth_seq (b_ss d))). unfold new_leg. assert (X : forall f g : nat -> nat, (forall b, f b <= g b) -> forall l, sum_list (map f l) <= sum_list (map g l)).
      { intros f g H. unfold sum_list. induction l as [|b l IH]; cbn; [lia|]. specialize (H b). lia. }
      apply X. intros b. unfold new_size, kept. destruct (assoc leqb [b] (b_blocks d)) as [x|] eqn:EA; [|cbn; lia]. cbn. destruct (above gtb v (entries x)) as [|m] eqn:EM; [lia|]. rewrite <- EM.
      apply assoc_nodup in EA; [|apply sorted_nodup, Vd]. destruct (d_block Vd Rd _ EA) as (c & E1 & E2 & E3). cbn in E1, E3. injection E1 as <-.
      assert (L : length (entries x) = nth b (b_ss d) 0) by (unfold entries; rewrite map_length, idxs_length, E3; cbn; lia). rewrite <- L. unfold above. clear. induction (entries x) as [|y l IH]; cbn; [lia|]. destruct (gtb y v); cbn; lia.
    Qed.
    Theorem svd_tol_ok (T : t) D s : valid T -> nonempty T -> 0 < s < b_rank T -> b_blocks T <> [] -> dense_form T D ->
      (forall e, In e (b_blocks T) -> exists e' o, In e' (b_blocks T) /\ block_quantity s T (fst e') = block_quantity s T (fst e) /\ in_range (dsh (snd e')) o = true /\ dv (snd e') o <> rz) ->
      (forall M, sector_matrix s T D M -> thin M (dsvd M) /\ descending gtb (entries (vals M)) /\ forall x, In x (entries (vals M)) -> gtb rz x = false) ->
      (Z.of_nat (prod_list (map (bsz G) (skipn s (blegs T)))) <= 2 ^ 63)%Z ->
      exists U d V k, svd_tol gtb lower wt dsvd T s thr = Some (Ok (U, d, V)) /\ decomposition s T D U d V k /\
        ((forall M, sector_matrix s T D M -> isometries M (dsvd M)) -> isometric s T U V k) /\
        ((forall M, sector_matrix s T D M -> real_entries (vals M)) -> forall Dd, dense_form d Dd -> real_entries Dd).
    Proof.
      intros VT HN Hs HB FD HNZ HM HBound.
      destruct (@svd_split_ok G R dsvd T D s VT HN Hs HB FD (fun M H => proj1 (HM M H))) as (U & d & V & k & E & DC & HI & HR & HSV).
      pose proof (decomposition_shapes DC) as (Vd & Rd & Sd & CU & CV & LU & LV & QU & QV & Qd).
      destruct DC as (VU & _ & VV & LK & NDK & B1 & B2 & BS1 & BS2 & _ & _ & _ & RU & Rud & RV & DU & Dd & DV & FU & Fd & FV & HF).
      (* the blocks of d *)
      assert (ND : NoDup (map fst (b_blocks d))) by (apply sorted_nodup, Vd).
      assert (BD : forall c x, In ([c], x) (b_blocks d) -> exists M, sector_matrix s T D M /\ holds_sector s T M /\ x = vals M).
      { intros c x Hx. destruct (d_block Vd Rd _ Hx) as (c' & E1 & E2 & _). cbn in E1. injection E1 as <-. rewrite Sd in E2. destruct (HSV c E2) as (M & M1 & M2 & M3). exists M. split; [exact M1|]. split; [exact M2|].
        apply (assoc_nodup (b_blocks d)) in Hx, M3; auto. congruence. }
      assert (BK : forall e, In e (b_blocks d) -> exists c M, fst e = [c] /\ c < length (b_ss d) /\ sector_matrix s T D M /\ holds_sector s T M /\ snd e = vals M).
      { intros (kk, x) He. destruct (d_block Vd Rd _ He) as (c & E1 & E2 & _). cbn in E1. subst kk. destruct (BD c x He) as (M & M1 & M2 & M3). exists c, M. auto. }
      assert (HD : forall e, In e (b_blocks d) -> descending gtb (entries (snd e))) by (intros e He; destruct (BK e He) as (c & M & _ & _ & M1 & _ & ->); apply HM; exact M1).
      assert (POS : forall x, In x (all_values d) -> gtb rz x = false).
      { intros x Hx. unfold all_values in Hx. apply in_concat in Hx as (l & Hl & Hx). apply in_map_iff in Hl as (e & <- & He). destruct (BK e He) as (c & M & _ & _ & M1 & _ & EM). rewrite EM in Hx. apply (HM M M1). exact Hx. }
      assert (NZV : forall e, In e (b_blocks d) -> exists x, In x (entries (snd e)) /\ x <> rz).
      { intros e He. destruct (BK e He) as (c & M & _ & _ & M1 & (b & v & Hb & HH) & ->). destruct (HNZ _ Hb) as ((b', v') & o & Hb' & QB & Ho & No). cbn [fst snd] in Ho, No, QB. destruct (HH b' v' Hb' QB o Ho) as (i & Hi & Ei).
        destruct (HM M M1) as (HT & _). destruct M1 as (m & n & _ & _ & _ & _ & SM & _). unfold thin in HT. destruct (dsvd M) as ((bU, bd), bV) eqn:EM. cbn [fst snd]. destruct (HT m n SM) as (_ & Sbd & _ & HP).
        destruct (existsb (fun x => negb (reqb x rz)) (entries bd)) eqn:EX; [apply existsb_exists in EX as (x & Hx & Nx); exists x; split; [exact Hx|]; intros ->; rewrite (proj2 (reqb_spec R rz rz) eq_refl) in Nx; discriminate|].
        exfalso. apply No. rewrite <- Ei. rewrite SM in Hi. destruct i as [|p [|q [|]]]; try discriminate; try (cbn in Hi; rewrite ?andb_false_r in Hi; discriminate). cbn in Hi. rewrite andb_true_r, andb_true_iff, !Nat.ltb_lt in Hi.
        rewrite HP by tauto. apply sumf_zero. intros z Hz. apply in_seq in Hz. assert (Z0 : dv bd [z] = rz); [|rewrite Z0; ring].
        assert (Iz : In (dv bd [z]) (entries bd)) by (unfold entries; apply in_map; apply idxs_In; rewrite Sbd; cbn; rewrite (proj2 (Nat.ltb_lt _ _)) by lia; reflexivity).
        destruct (reqb (dv bd [z]) rz) eqn:ER; [apply (reqb_spec R); exact ER|]. exfalso. assert (X : existsb (fun x => negb (reqb x rz)) (entries bd) = true) by (apply existsb_exists; exists (dv bd [z]); rewrite ER; auto). congruence. }
      (* there is a block *)
      assert (EB : exists e, In e (b_blocks d)).
      { destruct (b_blocks T) as [|e0 bs] eqn:EBT; [congruence|]. assert (I0 : In e0 (b_blocks T)) by (rewrite EBT; left; reflexivity). rewrite <- EBT in HB.
        destruct (HNZ e0 ltac:(left; reflexivity)) as ((b0, v0) & o & I1 & _ & Ho & No). clear I0. assert (I0 : In (b0, v0) (b_blocks T)) by (rewrite EBT; exact I1). cbn [snd] in Ho, No.
        destruct (Nat.eq_dec (length (fst k)) 0) as [Z|Z]; [|destruct (HSV 0 ltac:(lia)) as (M & _ & _ & HX); eauto].
        exfalso. destruct HF as (SU & SDd & SV & HP). assert (Kz : fst k = []) by (destruct (fst k); [auto|discriminate]).
        destruct (proj1 (proj2 VT) b0 v0 I0) as ((A1 & _) & A3). rewrite A3 in Ho. pose proof (proj2 FD b0 o A1 Ho) as EE. unfold bentry in EE. rewrite (proj2 (assoc_nodup (b_blocks T) b0 v0 (sorted_nodup (proj2 (proj2 VT)))) I0) in EE.
        apply No. rewrite <- EE. destruct (@place_spec (legs T) b0 o) as (P1 & _); [rewrite (legs_lens (proj1 VT)); exact A1|exact Ho|]. 
        set (i := place (legs T) b0 o) in *. rewrite <- (firstn_skipn s i). 
        assert (ET : tots (legs T) = map (bsz G) (firstn s (blegs T)) ++ map (bsz G) (skipn s (blegs T))).
        { rewrite <- map_app, firstn_skipn. unfold blegs. symmetry. apply combine_tots. rewrite (legs_length (proj1 VT)), (qlegs_length (proj1 VT)). reflexivity. }
        rewrite ET in P1. assert (Ls : length (map (bsz G) (firstn s (blegs T))) = s).
        { rewrite map_length, firstn_length. unfold blegs. rewrite combine_length, (legs_length (proj1 VT)), (qlegs_length (proj1 VT)). lia. }
        assert (Li : s <= length i) by (apply in_range_length in P1; rewrite app_length in P1; lia).
        rewrite <- (firstn_skipn s i) in P1. rewrite in_range_app in P1 by (rewrite firstn_length; lia). apply andb_true_iff in P1 as (P1 & P2). rewrite (HP _ _ P1 P2). unfold bsz. rewrite Kz. reflexivity. }
      assert (VALIN : forall e x, In e (b_blocks d) -> In x (entries (snd e)) -> In x (all_values d)) by (intros e x He Hx; unfold all_values; apply in_concat; exists (entries (snd e)); split; [apply in_map_iff; eauto|exact Hx]).
      assert (NZA : exists y, In y (all_values d) /\ y <> rz) by (destruct EB as (e & He); destruct (NZV e He) as (y & Hy & Ny); exists y; split; [eapply VALIN; eauto|exact Ny]).
      assert (HB63 : (Z.of_nat (length (all_values d)) <= 2 ^ 63)%Z).
      { pose proof (values_le Vd Rd) as VL. rewrite Sd in VL. unfold bsz in BS2, HBound. lia. }
      destruct (@truncate_ok G R W gtb lower wt HO U d V thr 1 (2 ^ 64 - 1) Vd Rd HD CU CV) as (vs & n & U' & d' & V' & P & DV0 & K & _ & K2 & K3 & ET & Td & Vd' & He' & EV & TU & TV & TiU & TiV); [|exact HB63|lia|].
      { destruct NZA as (y & Hy & _). destruct (all_values d); [destruct Hy|cbn; lia]. }
      pose proof (Permutation_length P) as PL.
      set (x := nth (n - 1) vs rz) in *. set (v := lower x) in *.
      assert (TAIL : forall y, In y (skipn n vs) -> y = rz).
      { intros y Hy. destruct (reqb y rz) eqn:ER; [apply (reqb_spec R); exact ER|]. exfalso. assert (Ny : y <> rz) by (intros ->; rewrite (proj2 (reqb_spec R rz rz) eq_refl) in ER; discriminate).
        destruct (Nat.lt_ge_cases n (length vs)) as [L|L]; [|rewrite skipn_all2 in Hy by lia; destruct Hy]. assert (X : Z.of_nat n = (2 ^ 64 - 1)%Z); [|lia].
        apply K2; [exact L|]. exists vs. split; [left; reflexivity|]. unfold lost_after. apply exact_cut. eauto. }
      assert (SK : skipn (n - 1) vs = x :: skipn n vs).
      { unfold x. clear - K. assert (H : n - 1 < length vs) by lia. replace n with (S (n - 1)) at 3 by lia. revert H. generalize (n - 1). clear. induction vs as [|a l IH]; intros [|m] H; cbn in *; try lia; auto. apply IH. lia. }
      assert (NX : x <> rz).
      { intros Ex. assert (Z : forall y, In y (skipn (n - 1) vs) -> y = rz) by (rewrite SK; intros y [<-|Hy]; auto). destruct (Nat.eq_dec n 1) as [->|Nn].
        - destruct NZA as (y & Hy & Ny). apply Ny, Z. cbn. eapply Permutation_in; [apply Permutation_sym; exact P|exact Hy].
        - destruct (K3 (n - 1) ltac:(lia) ltac:(lia)) as (row & [<-|[]] & HW). unfold lost_after in HW. apply exact_cut in HW as (y & Hy & Ny). apply Ny, Z. exact Hy. }
      assert (IX : In x (all_values d)) by (eapply Permutation_in; [exact P|]; apply nth_In; lia).
      assert (GX : gtb x rz = true) by (destruct (gtb x rz) eqn:EG; auto; exfalso; apply NX; apply (gt_total HO); auto).
      pose proof (low GX) as GV. fold v in GV.
      assert (KEEP : forall y, In y (all_values d) -> y <> rz -> gtb y v = true).
      { intros y Hy Ny. assert (Iv : In y vs) by (eapply Permutation_in; [apply Permutation_sym; exact P|exact Hy]). apply (In_nth vs y rz) in Iv as (i & Hi & Ei).
        assert (Ln : i < n). { destruct (Nat.lt_ge_cases i n) as [|L]; [assumption|]. exfalso. apply Ny, TAIL. rewrite <- Ei. replace i with (n + (i - n)) by lia. rewrite <- (firstn_skipn n vs) at 1. rewrite app_nth2; rewrite firstn_length, Nat.min_l by lia; [|lia]. apply nth_In. rewrite skipn_length. lia. }
        assert (Gxy : gtb x y = false). { destruct (Nat.eq_dec i (n - 1)) as [->|]; [rewrite <- Ei; apply (gt_irrefl HO)|]. rewrite <- Ei. apply DV0; lia. }
        destruct (gtb y x) eqn:Gyx; [apply (gt_trans HO) with (y := x); auto|]. rewrite <- (gt_total HO x y Gxy Gyx). exact GV. }
      assert (DROP : forall y, In y (all_values d) -> gtb y v = false -> y = rz).
      { intros y Hy Gy. destruct (reqb y rz) eqn:ER; [apply (reqb_spec R); exact ER|]. exfalso. rewrite KEEP in Gy; [discriminate|exact Hy|]. intros ->. rewrite (proj2 (reqb_spec R rz rz) eq_refl) in ER. discriminate. }
      assert (NE : forall b, ~ emptied gtb d v b).
      { intros b Hb. unfold emptied, kept in Hb. destruct (assoc leqb [b] (b_blocks d)) as [z|] eqn:EA; [|discriminate]. cbn in Hb. injection Hb as Hb. apply assoc_nodup in EA; auto. destruct (NZV _ EA) as (y & Hy & Ny). cbn [snd] in Hy.
        pose proof (KEEP y (VALIN _ _ EA Hy) Ny) as Gy. unfold above in Hb. assert (IF : In y (filter (fun x => gtb x v) (entries z))) by (apply filter_In; auto). destruct (filter _ (entries z)); [destruct IF|discriminate]. }
      assert (TI : forall X : t, tidy gtb d v X) by (intros X b Hb; destruct (NE b Hb)). specialize (TiU (TI U)). specialize (TiV (TI V)).
      set (l' := new_leg gtb d v (b_ss d)).
      assert (LU' : legs U' = map fst (firstn s (blegs T)) ++ [l'] /\ qlegs U' = map snd (firstn s (blegs T)) ++ [snd k]).
      { destruct TU as (_ & _ & _ & q1 & q2 & _). rewrite q1, q2, LU, QU, removelast_last, last_last, <- Sd. auto. }
      assert (LV' : legs V' = map fst (skipn s (blegs T)) ++ [l'] /\ qlegs V' = map (map (qinv G)) (map snd (skipn s (blegs T))) ++ [snd k]).
      { destruct TV as (_ & _ & _ & q1 & q2 & _). rewrite q1, q2, LV, QV, removelast_last, last_last, <- Sd. auto. }
      assert (Ld' : legs d' = [l'] /\ qlegs d' = [map (fun _ => qe G) (snd k)]).
      { destruct Td as (_ & _ & _ & q1 & q2 & _). rewrite q1, q2, Qd, (d_legs Vd Rd). auto. }
      assert (LL : length l' = length (fst k)) by (unfold l'; rewrite new_leg_length, Sd; reflexivity).
      destruct (dense_of TiU) as (DU' & FU'). destruct (dense_of Vd') as (Dd' & Fd'). destruct (dense_of TiV) as (DV' & FV').
      destruct HF as (SU & SDd & SV & HP).
      assert (RDU : removelast (dsh DU) = map (bsz G) (firstn s (blegs T))) by (rewrite SU; apply removelast_last).
      assert (RDV : removelast (dsh DV) = map (bsz G) (skipn s (blegs T))) by (rewrite SV; apply removelast_last).
      exists U', d', V', (l', snd k). split; [unfold svd_tol, svd_trunc; rewrite E; cbn [obind]; exact ET|]. split; [|split].
      - split; [exact TiU|]. split; [exact Vd'|]. split; [exact TiV|]. cbn [fst snd]. rewrite LL. split; [exact LK|]. split; [exact NDK|]. split; [exact B1|]. split; [exact B2|]. pose proof (new_leg_total v Vd Rd) as NLE. fold l' in NLE. rewrite Sd in NLE. unfold bsz at 1 3. unfold bsz at 1 in BS1. unfold bsz at 1 in BS2. cbn [fst]. split; [lia|]. split; [lia|]. unfold blegs at 1 3 4. rewrite (proj1 LU'), (proj2 LU'), (proj1 LV'), (proj2 LV'), (proj1 Ld'), (proj2 Ld').
        split; [apply combine_snoc|]. split; [reflexivity|]. split.
        { replace (map fst (skipn s (blegs T))) with (map fst (map (@bdual G) (skipn s (blegs T)))) by (rewrite map_map; apply map_ext; intros []; reflexivity). replace (map (map (qinv G)) (map snd (skipn s (blegs T)))) with (map snd (map (@bdual G) (skipn s (blegs T)))) by (rewrite !map_map; apply map_ext; intros []; reflexivity). apply combine_snoc. }
        split; [rewrite (proj1 TU); exact RU|]. split; [rewrite (proj1 Td); exact Rud|]. split; [rewrite (proj1 TV); exact RV|]. exists DU', Dd', DV'. split; [exact FU'|]. split; [exact Fd'|]. split; [exact FV'|].
        split; [|split; [|split]].
        + rewrite (proj1 FU'), (proj1 LU'), map_app, map_map. reflexivity.
        + rewrite (proj1 Fd'), (proj1 Ld'). reflexivity.
        + rewrite (proj1 FV'), (proj1 LV'), map_app, map_map. reflexivity.
        + intros i j Hi Hj. rewrite (HP i j Hi Hj). unfold bsz at 2. cbn [fst]. symmetry.
          etransitivity; [apply (@cut_product G R gtb HO d v Vd Rd HD U V d' U' V' DU Dd DV DU' Dd' DV' i j); auto; [rewrite RDU; exact Hi|rewrite RDV; exact Hj]|].
          unfold restricted_product, bsz. rewrite Sd. apply sumf_ext. intros c Hc. apply in_seq in Hc. destruct (gtb (dv Dd [c]) v) eqn:EG; [reflexivity|].
          assert (Z0 : dv Dd [c] = rz); [|rewrite Z0; ring]. destruct (@at_section (b_ss d) c) as (b & o & Hb & Ho & ->); [rewrite Sd; lia|]. 
          destruct (assoc leqb [b] (b_blocks d)) as [z|] eqn:EA; [|apply (@d_none G R d Vd Rd Dd b o Fd EA Hb Ho)]. destruct (@d_at G R d Vd Rd Dd b o z Fd EA Ho) as (EQ & EL & _). rewrite EQ in EG |- *. apply DROP; [|exact EG]. apply assoc_nodup in EA; auto. apply (VALIN _ _ EA). cbn [snd]. apply nth_In. lia.
      - intros HIS. destruct (HI HIS DU DV FU FV) as (I1 & I2). clear DU' DV' FU' FV'. intros DU' DV' FU' FV'. unfold bsz in *. cbn [fst]. rewrite <- Sd in I1, I2. rewrite <- RDU in I1. rewrite <- RDV in I2.
        assert (ORT : forall (X X' : t) DX DX' L, carries_d d X -> legs X = L ++ [b_ss d] -> legs X' = L ++ [l'] -> truncated gtb d v X X' -> valid X' -> dense_form X DX -> dense_form X' DX' -> tensor_orthonormal (removelast (dsh DX)) (sum_list (b_ss d)) DX -> tensor_orthonormal (map sum_list L) (sum_list l') DX').
        { intros X X' DX DX' L CX EX EX' TX VX' FX FX' IX' c c' Hc Hc'. destruct (@at_section l' c Hc) as (b & o & Hb & Ho & ->). destruct (@at_section l' c' Hc') as (b' & o' & Hb' & Ho' & ->).
          assert (RS : removelast (dsh DX') = map sum_list L) by (rewrite (proj1 FX'), EX', map_app; cbn [map]; apply removelast_last). rewrite <- RS. unfold l' in Hb, Hb'. rewrite new_leg_length in Hb, Hb'.
          unfold l'. rewrite (@cut_orthonormal G R gtb HO d v Vd Rd HD X X' DX DX' CX TX VX' FX FX' IX' b o b' o' Hb Hb' Ho Ho' (NE b) (NE b')).
          fold l'. destruct (Nat.eqb_spec (sum_list (firstn b l') + o) (sum_list (firstn b' l') + o')) as [E1|E1].
          - assert (Z1 : located l' (sum_list (firstn b l') + o) b o) by (split; [unfold l'; rewrite new_leg_length; exact Hb|split; auto]). assert (Z2 : located l' (sum_list (firstn b l') + o) b' o') by (split; [unfold l'; rewrite new_leg_length; exact Hb'|split; auto]).
            apply find_section_unique in Z1, Z2. rewrite Z1 in Z2. injection Z2 as -> ->. rewrite !Nat.eqb_refl. reflexivity.
          - destruct (Nat.eqb_spec b b') as [->|]; auto. destruct (Nat.eqb_spec o o') as [->|]; auto. congruence. }
        replace (map (fun l => sum_list (fst l)) (firstn s (blegs T))) with (map sum_list (map fst (firstn s (blegs T)))) by apply map_map. replace (map (fun l => sum_list (fst l)) (skipn s (blegs T))) with (map sum_list (map fst (skipn s (blegs T)))) by apply map_map. rewrite <- Sd in LU, LV. split.
        + apply (ORT U U' DU DU'); auto; apply LU'.
        + apply (ORT V V' DV DV'); auto; apply LV'.
      - intros HRE Dd2 F2. pose proof (HR HRE Dd Fd) as RE. intros i Hi. rewrite (proj1 F2), (proj1 Ld') in Hi. destruct i as [|c [|]]; try discriminate; [|cbn in Hi; rewrite andb_false_r in Hi; discriminate]. cbn in Hi. rewrite andb_true_r in Hi. apply Nat.ltb_lt in Hi.
        destruct (@at_section l' c Hi) as (b & o & Hb & Ho & ->). unfold l' in Hb. rewrite new_leg_length in Hb. destruct (@cut_values G R gtb HO d v Vd Rd HD d' Dd Dd2 b o Td Vd' He' Fd F2 Hb Ho) as (CK & _). fold l' in CK. rewrite (CK (NE b)). apply RE.
        rewrite SDd. cbn. unfold bsz. rewrite <- Sd. rewrite (proj2 (Nat.ltb_lt _ _)); [reflexivity|]. apply section_lt; [exact Hb|]. pose proof (@new_leg_le G R gtb HO d v Vd Rd HD b Hb). fold l' in H. lia.
    Qed.
  End Lossless.
End M.
