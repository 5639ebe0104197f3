(** The pieces of the block singular value decomposition: which blocks they hold and where. *)
From Verif Require Import Base Quantity QuantityProofs FlatMap SpecFlatMap FlatMapProofs Ring Index SpecIndex Dense IndexProofs BTensor SpecBTensor LegsProofs
  BTensorProofs BSvd SvdPieces.
From Coq Require Import Permutation.
Set Implicit Arguments.

Lemma key_order_nat : key_order Nat.eqb Nat.ltb.
Proof.
  split; [exact Nat.eqb_eq|]. split; [exact Nat.ltb_irrefl|]. split.
  - intros a b c. rewrite !Nat.ltb_lt. lia.
  - intros a b. rewrite !Nat.ltb_lt. lia.
Qed.

Lemma sorted_keys K V (ltb : K -> K -> bool) (l : list (K * V)) : (forall a, ltb a a = false) -> sorted ltb l -> NoDup (map fst l).
Proof.
  intros HI. induction 1 as [|e l HS IH HF]; cbn; constructor; auto. intros H. apply in_map_iff in H as (e' & E & H). rewrite Forall_forall in HF.
  specialize (HF e' H). cbn in HF. rewrite E, HI in HF. discriminate.
Qed.

Section Compact.
  Variable R : ring.
  Notation entry := (list nat * dense R)%type.
  Variables szr szc : nat -> nat.
  Definition entry_ok (e : entry) : Prop := fst e = [row_of e; col_of e] /\ dsh (snd e) = [szr (row_of e); szc (col_of e)].

  Lemma meet_rows (p : list entry) : forall cur acc rows, Forall entry_ok p -> StronglySorted (fun a b => row_of a <= row_of b) p -> (forall e, In e p -> cur <= row_of e) ->
    tiled szr rows acc -> NoDup (map fst rows) -> (forall b, In b (map fst rows) -> b <= cur) -> In cur (map fst rows) ->
    exists cur' acc' rows', fold_left (@meet_row R) p (cur, acc, rows) = (cur', acc', rows') /\ tiled szr rows' acc' /\ NoDup (map fst rows') /\
      forall b, In b (map fst rows') <-> In b (map fst rows) \/ exists e, In e p /\ row_of e = b.
  Proof.
    induction p as [|e p IH]; intros cur acc rows HO HS HC HT HN HB HI.
    - cbn. do 3 eexists. split; [reflexivity|]. split; [exact HT|]. split; [exact HN|]. intros b. split; [tauto|intros [H|(e & [] & _)]; exact H].
    - inversion HO as [|? ? (HE1 & HE2) HO']; subst. inversion HS as [|? ? HS' HF]; subst. rewrite Forall_forall in HF. cbn [fold_left].
      assert (HR : rows_n e = szr (row_of e)) by (unfold rows_n; rewrite HE2; reflexivity). unfold meet_row at 2. rewrite HR.
      pose proof (HC e (or_introl eq_refl)) as HCe. destruct (cur =? row_of e) eqn:E; cbn [negb].
      + apply Nat.eqb_eq in E. destruct (IH cur acc rows HO' HS') as (c & a & r & H1 & H2 & H3 & H4); auto.
        { intros x Hx. apply HC. right. exact Hx. }
        do 3 eexists. split; [exact H1|]. split; [exact H2|]. split; [exact H3|]. intros b. rewrite H4. split.
        * intros [H|(x & Hx & <-)]; [tauto|]. right. exists x. split; [right|]; auto.
        * intros [H|(x & [<-|Hx] & <-)]; [tauto| |right; exists x; auto]. left. rewrite <- E. exact HI.
      + apply Nat.eqb_neq in E. assert (Hnew : ~ In (row_of e) (map fst rows)) by (intros C; apply HB in C; lia).
        destruct (IH (row_of e) (acc + szr (row_of e)) (rows ++ [(row_of e, (acc, szr (row_of e)))]) HO' HS') as (c & a & r & H1 & H2 & H3 & H4).
        * intros x Hx. apply HF. exact Hx.
        * constructor. exact HT.
        * rewrite map_app. cbn. apply Permutation_NoDup with (row_of e :: map fst rows); [apply Permutation_cons_append|constructor; auto].
        * intros b. rewrite map_app. intros Hb. apply in_app_or in Hb as [Hb|[<-|[]]]; [apply HB in Hb; cbn in *; lia|cbn; lia].
        * rewrite map_app. apply in_or_app. right. left. reflexivity.
        * do 3 eexists. split; [exact H1|]. split; [exact H2|]. split; [exact H3|]. intros b. rewrite H4, map_app, in_app_iff. cbn. split.
          -- intros [[H|[<-|[]]]|(x & Hx & <-)]; [tauto| |]; right; [exists e|exists x]; auto.
          -- intros [H|(x & [<-|Hx] & <-)]; [tauto|tauto|right; exists x; auto].
  Qed.
  Lemma meet_cols (p : list entry) : forall acc cols, Forall entry_ok p -> sorted Nat.ltb cols -> (exists l', Permutation l' cols /\ tiled szc l' acc) ->
    exists acc' cols', fold_left (@meet_col R) p (acc, cols) = (acc', cols') /\ sorted Nat.ltb cols' /\ (exists l', Permutation l' cols' /\ tiled szc l' acc') /\
      forall b, In b (map fst cols') <-> In b (map fst cols) \/ exists e, In e p /\ col_of e = b.
  Proof.
    induction p as [|e p IH]; intros acc cols HO HS HT.
    - cbn. do 2 eexists. split; [reflexivity|]. split; [exact HS|]. split; [exact HT|]. intros b. split; [tauto|intros [H|(e & [] & _)]; exact H].
    - inversion HO as [|? ? (HE1 & HE2) HO']; subst. cbn [fold_left].
      assert (HR : cols_n e = szc (col_of e)) by (unfold cols_n; rewrite HE2; reflexivity).
      assert (HM : exists acc' cols', meet_col (acc, cols) e = (acc', cols') /\ sorted Nat.ltb cols' /\ (exists l', Permutation l' cols' /\ tiled szc l' acc') /\
        forall b, In b (map fst cols') <-> In b (map fst cols) \/ col_of e = b).
      { unfold meet_col. rewrite HR. cbv zeta.
        assert (NEW : forall l1 l2, cols = l1 ++ l2 -> sorted Nat.ltb (l1 ++ (col_of e, (acc, szc (col_of e))) :: l2) -> vec_insert (length l1) (col_of e, (acc, szc (col_of e))) cols = l1 ++ (col_of e, (acc, szc (col_of e))) :: l2 /\
          (exists l', Permutation l' (l1 ++ (col_of e, (acc, szc (col_of e))) :: l2) /\ tiled szc l' (acc + szc (col_of e))) /\
          forall b, In b (map fst (l1 ++ (col_of e, (acc, szc (col_of e))) :: l2)) <-> In b (map fst cols) \/ col_of e = b).
        { intros l1 l2 -> _. unfold vec_insert. rewrite firstn_mid, skipn_mid. split; [reflexivity|]. destruct HT as (l' & P & HT). split.
          - exists (l' ++ [(col_of e, (acc, szc (col_of e)))]). split; [|constructor; exact HT].
            rewrite <- Permutation_cons_append. rewrite P. apply Permutation_middle.
          - intros b. rewrite !map_app, !in_app_iff. cbn. tauto. }
        destruct (@lb_view nat (nat * nat) Nat.eqb Nat.ltb key_order_nat (col_of e) cols HS) as [L1 L2|l1 v l2 E L1 L2 L3|l1 x l2 E L1 L2 L3].
        - rewrite L2, nth_error_len. destruct (NEW cols []) as (N1 & N2 & N3); [rewrite app_nil_r; reflexivity|apply sorted_mid_insert; [rewrite app_nil_r; exact HS|exact L1|intros ? []]|].
          rewrite N1. do 2 eexists. split; [reflexivity|]. split; [|split; [exact N2|exact N3]]. apply sorted_mid_insert; [rewrite app_nil_r; exact HS|exact L1|intros ? []].
        - rewrite L3. replace (nth_error cols (length l1)) with (Some (col_of e, v)) by (rewrite E; symmetry; apply nth_error_mid). cbn [fst]. rewrite Nat.eqb_refl. cbn [negb]. do 2 eexists. split; [reflexivity|]. split; [exact HS|]. split; [exact HT|].
          intros b. split; [tauto|]. intros [H|<-]; [exact H|]. rewrite E, map_app. apply in_or_app. right. left. reflexivity.
        - rewrite L3. replace (nth_error cols (length l1)) with (Some x) by (rewrite E; symmetry; apply nth_error_mid).
          assert (NE : (fst x =? col_of e) = false). { apply Nat.eqb_neq. specialize (L2 x (or_introl eq_refl)). apply Nat.ltb_lt in L2. lia. }
          rewrite NE. cbn [negb]. assert (SS : sorted Nat.ltb (l1 ++ (col_of e, (acc, szc (col_of e))) :: x :: l2)) by (apply sorted_mid_insert; [rewrite <- E; exact HS|exact L1|exact L2]).
          destruct (NEW l1 (x :: l2) E SS) as (N1 & N2 & N3). rewrite N1. do 2 eexists. split; [reflexivity|]. split; [exact SS|]. split; [exact N2|exact N3]. }
      destruct HM as (a1 & c1 & -> & S1 & T1 & M1). destruct (IH a1 c1 HO' S1 T1) as (a2 & c2 & E2 & S2 & T2 & M2).
      do 2 eexists. split; [exact E2|]. split; [exact S2|]. split; [exact T2|]. intros b. rewrite M2, M1. split.
      + intros [[H|H]|(x & Hx & H)]; [tauto| |]; right; [exists e|exists x]; split; auto; [left; reflexivity|right; exact Hx].
      + intros [H|(x & [<-|Hx] & H)]; [tauto|tauto|right; exists x; auto].
  Qed.

  Lemma keys_slice (l : list slice) b : In b (map fst l) -> exists o s : nat, In (b, (o, s)) l.
  Proof. intros H. apply in_map_iff in H as ((b', (o, s)) & E & H). cbn in E. subst. eauto. Qed.
  Definition put_step (rows cols : list slice) (M : dense R) (e : entry) : result (dense R) :=
    do c <- find_slice (col_of e) cols ;
    do r <- find_slice (row_of e) rows ;
    if leqb [snd r; snd c] (dsh (snd e)) then Ok (d_put [fst r; fst c] (snd e) M) else Throw TorchError.
  Lemma put_all rows cols m n (HR : tiling szr rows m) (HC : tiling szc cols n) (p : list entry) : forall M, Forall entry_ok p -> NoDup (map fst p) ->
    (forall e, In e p -> In (row_of e) (map fst rows) /\ In (col_of e) (map fst cols)) -> dsh M = [m; n] ->
    exists M', rfold (put_step rows cols) p M = Ok M' /\ dsh M' = [m; n] /\
      forall i o s j o' s' x y, In (i, (o, s)) rows -> In (j, (o', s')) cols -> x < s -> y < s' ->
        dv M' [o + x; o' + y] = match assoc leqb [i; j] p with Some t => dv t [x; y] | None => dv M [o + x; o' + y] end.
  Proof.
    induction p as [|e p IH]; intros M HO HN HI HM.
    - exists M. split; [reflexivity|]. split; [exact HM|]. reflexivity.
    - inversion HO as [|? ? (HE1 & HE2) HO']; subst. inversion HN as [|? ? N1 N2]; subst.
      destruct (HI e (or_introl eq_refl)) as (Hr & Hc). apply keys_slice in Hr as (ro & rn & Hr), Hc as (co & cn & Hc).
      destruct (tiling_len _ _ _ HR Hr) as (-> & Lr). destruct (tiling_len _ _ _ HC Hc) as (-> & Lc).
      assert (E0 : put_step rows cols M e = Ok (d_put [ro; co] (snd e) M)).
      { unfold put_step. rewrite (find_slice_In _ _ _ (proj1 HC) Hc). cbn [rbind]. rewrite (find_slice_In _ _ _ (proj1 HR) Hr). cbn [rbind fst snd]. rewrite HE2, leqb_refl. reflexivity. }
      cbn [rfold]. rewrite E0. cbn [rbind].
      destruct (IH (d_put [ro; co] (snd e) M) HO' N2) as (M' & E & SM & VM); [intros x Hx; apply HI; right; exact Hx|exact HM|].
      exists M'. split; [exact E|]. split; [exact SM|]. intros i o s j o' s' x y Hi Hj Hx Hy. rewrite (VM i o s j o' s' x y Hi Hj Hx Hy).
      cbn [assoc]. destruct (leqb (fst e) [i; j]) eqn:EK.
      + apply leqb_eq in EK. assert (NA : assoc leqb [i; j] p = None).
        { apply (assoc_None key_order_idx). intros (v & Hv). apply N1. rewrite EK. apply (in_map fst) in Hv. exact Hv. }
        rewrite NA. rewrite HE1 in EK. injection EK as EK1 EK2. rewrite EK1 in *. rewrite EK2 in *.
        assert (P1 : (o, s) = (ro, szr i)). { apply (find_slice_In _ _ _ (proj1 HR)) in Hi. apply (find_slice_In _ _ _ (proj1 HR)) in Hr. congruence. }
        assert (P2 : (o', s') = (co, szc j)). { apply (find_slice_In _ _ _ (proj1 HC)) in Hj. apply (find_slice_In _ _ _ (proj1 HC)) in Hc. congruence. }
        injection P1 as -> ->. injection P2 as -> ->. cbn [d_put dv]. rewrite HE2. cbn [inside map2]. rewrite !andb_true_r.
        replace ((ro <=? ro + x) && (ro + x <? ro + szr i) && ((co <=? co + y) && (co + y <? co + szc j))) with true.
        * replace (ro + x - ro) with x by lia. replace (co + y - co) with y by lia. reflexivity.
        * symmetry. rewrite !andb_true_iff, !Nat.leb_le, !Nat.ltb_lt. lia.
      + destruct (assoc leqb [i; j] p) as [v|]; [reflexivity|]. cbn [d_put dv]. rewrite HE2. cbn [inside]. rewrite !andb_true_r.
        destruct ((ro <=? o + x) && (o + x <? ro + szr (row_of e)) && ((co <=? o' + y) && (o' + y <? co + szc (col_of e)))) eqn:EI; [|reflexivity].
        exfalso. rewrite !andb_true_iff, !Nat.leb_le, !Nat.ltb_lt in EI.
        assert (Q1 : row_of e = i) by (apply (@tiling_hit szr rows m (row_of e) ro (szr (row_of e)) i o s (o + x) HR Hr Hi); lia).
        assert (Q2 : col_of e = j) by (apply (@tiling_hit szc cols n (col_of e) co (szc (col_of e)) j o' s' (o' + y) HC Hc Hj); lia).
        rewrite HE1, Q1, Q2, leqb_refl in EK. discriminate.
  Qed.
  Lemma compact_single_ok (p : list entry) : p <> [] -> Forall entry_ok p -> sorted lexb p ->
    exists M rows cols m n, compact_dense_single p = Ok (M, rows, cols) /\ dsh M = [m; n] /\ tiling szr rows m /\ tiling szc cols n /\
      (forall b, In b (map fst rows) <-> exists e, In e p /\ row_of e = b) /\ (forall b, In b (map fst cols) <-> exists e, In e p /\ col_of e = b) /\
      forall i o s j o' s' x y, In (i, (o, s)) rows -> In (j, (o', s')) cols -> x < s -> y < s' ->
        dv M [o + x; o' + y] = match assoc leqb [i; j] p with Some t => dv t [x; y] | None => rz end.
  Proof.
    intros NE HO HS. destruct p as [|x0 p0]; [congruence|]. set (p := x0 :: p0) in *. unfold compact_dense_single. fold p. unfold p at 1.
    pose proof (Forall_inv HO) as (Hx1 & Hx2). assert (HR0 : rows_n x0 = szr (row_of x0)) by (unfold rows_n; rewrite Hx2; reflexivity).
    assert (HS' : StronglySorted (fun a b => row_of a <= row_of b) p).
    { clear -HO HS. induction HS as [|a l HS IH HF]; [constructor|]. inversion HO as [|? ? (A1 & _) HO']; subst. constructor; [auto|]. rewrite Forall_forall in *.
      intros b Hb. specialize (HF b Hb). cbn beta in HF. destruct (HO' b Hb) as (B1 & _). rewrite A1, B1 in HF. cbn in HF. rewrite orb_true_iff, andb_true_iff, Nat.ltb_lt, Nat.eqb_eq in HF. lia. }
    destruct (@meet_rows p (row_of x0) (rows_n x0) [(row_of x0, (0, rows_n x0))]) as (cur & m & rows & E1 & T1 & N1 & M1); auto.
    { intros e [<-|He]; [lia|]. inversion HS' as [|? ? _ HF]; subst. rewrite Forall_forall in HF. apply HF. exact He. }
    { rewrite HR0. exact (tiled_snoc (row_of x0) (tiled_nil szr)). }
    { cbn. constructor; [intros []|constructor]. }
    { cbn. intros b [<-|[]]. lia. }
    { cbn. auto. }
    destruct (@meet_cols p 0 []) as (n & cols & E2 & S2 & T2 & M2); auto; [constructor|exists []; split; [constructor|constructor]|].
    rewrite E1, E2.
    assert (TR : tiling szr rows m) by (split; [exact N1|exists rows; split; [reflexivity|exact T1]]).
    assert (TC : tiling szc cols n) by (split; [apply (@sorted_keys _ _ Nat.ltb _ Nat.ltb_irrefl); exact S2|exact T2]).
    assert (KR : forall b, In b (map fst rows) <-> exists e, In e p /\ row_of e = b).
    { intros b. rewrite M1. cbn. split; [intros [[<-|[]]|H]; [exists x0; split; [left; reflexivity|reflexivity]|exact H]|intros H; right; exact H]. }
    assert (KC : forall b, In b (map fst cols) <-> exists e, In e p /\ col_of e = b) by (intros b; rewrite M2; cbn; split; [intros [[]|H]; exact H|auto]).
    destruct (@put_all rows cols m n TR TC p (d_zeros [m; n]) HO) as (M & E & SM & VM); [apply (@sorted_keys _ _ lexb _ lexb_irrefl); exact HS| |reflexivity|].
    { intros e He. split; [apply KR|apply KC]; exists e; auto. }
    unfold put_step in E. rewrite E. cbn [rbind]. exists M, rows, cols, m, n. repeat (split; [assumption || reflexivity|]). exact VM.
  Qed.
End Compact.
