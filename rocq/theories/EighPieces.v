(** When the columns appear in order, rows and columns of a piece have the same slices. *)
From Verif Require Import Base Quantity QuantityProofs FlatMap SpecFlatMap FlatMapProofs Ring Index SpecIndex Dense IndexProofs BTensor SpecBTensor LegsProofs
  BTensorProofs BSvd SvdPieces SvdProofs.
From Coq Require Import Permutation.
Set Implicit Arguments.

Lemma tiled_same sz l n : tiled sz l n -> forall l' n', tiled sz l' n' -> map fst l = map fst l' -> l = l' /\ n = n'.
Proof.
  induction 1 as [|l n b H IH]; intros l' n' H' E; destruct H' as [|l' n' b' H'].
  - auto.
  - rewrite map_app in E. destruct (map fst l'); discriminate.
  - rewrite map_app in E. destruct (map fst l); discriminate.
  - rewrite !map_app in E. cbn in E. apply app_inj_tail in E as (E & <-). destruct (IH l' n' H' E) as (-> & ->). auto.
Qed.
Lemma ascending_same (l : list nat) : StronglySorted lt l -> forall l', StronglySorted lt l' -> (forall x, In x l <-> In x l') -> l = l'.
Proof.
  induction 1 as [|a l S IH F]; intros l' S' E.
  - destruct l' as [|b l']; [reflexivity|]. destruct (proj2 (E b) (or_introl eq_refl)).
  - destruct S' as [|b l' S' F']; [destruct (proj1 (E a) (or_introl eq_refl))|]. rewrite Forall_forall in F, F'.
    assert (a = b) as <-.
    { destruct (proj1 (E a) (or_introl eq_refl)) as [|H1]; [auto|]. destruct (proj2 (E b) (or_introl eq_refl)) as [|H2]; [auto|]. specialize (F' _ H1). specialize (F _ H2). lia. }
    f_equal. apply IH; [exact S'|]. intros x. split; intros Hx.
    + destruct (proj1 (E x) (or_intror Hx)) as [<-|H]; [specialize (F _ Hx); lia|exact H].
    + destruct (proj2 (E x) (or_intror Hx)) as [<-|H]; [specialize (F' _ Hx); lia|exact H].
Qed.

Section Order.
  Variable R : ring.
  Notation entry := (list nat * dense R)%type.
  Variables szr szc : nat -> nat.
  Lemma meet_rows_inc (p : list entry) : forall cur acc rows, Forall (entry_ok szr szc) p -> StronglySorted (fun a b => row_of a <= row_of b) p -> (forall e, In e p -> cur <= row_of e) ->
    tiled szr rows acc -> StronglySorted lt (map fst rows) -> (forall b, In b (map fst rows) -> b <= cur) ->
    exists cur' acc' rows', fold_left (@meet_row R) p (cur, acc, rows) = (cur', acc', rows') /\ tiled szr rows' acc' /\ StronglySorted lt (map fst rows').
  Proof.
    induction p as [|e p IH]; intros cur acc rows HO HS HC HT HN HB; [do 3 eexists; split; [reflexivity|]; split; [exact HT|exact HN]|].
    inversion HO as [|? ? (HE1 & HE2) HO']; subst. inversion HS as [|? ? HS' HF]; subst. rewrite Forall_forall in HF. cbn [fold_left].
    assert (HR : rows_n e = szr (row_of e)) by (unfold rows_n; rewrite HE2; reflexivity). unfold meet_row at 2. rewrite HR.
    pose proof (HC e (or_introl eq_refl)) as HCe. destruct (cur =? row_of e) eqn:E; cbn [negb].
    - apply IH; auto. intros x Hx. apply HC. right. exact Hx.
    - apply Nat.eqb_neq in E. apply IH; auto.
      + constructor. exact HT.
      + rewrite map_app. cbn. assert (A : forall b, In b (map fst rows) -> b < row_of e) by (intros b Hb; specialize (HB b Hb); cbn in *; lia). revert HN A. clear. induction (map fst rows) as [|x l IHl]; intros S A; cbn; [repeat constructor|].
        inversion S as [|? ? S1 S2]; subst. constructor; [apply IHl; [exact S1|intros b Hb; apply A; right; exact Hb]|]. apply Forall_app. split; [exact S2|constructor; [apply A; left; reflexivity|constructor]].
      + intros b. rewrite map_app. intros Hb. apply in_app_or in Hb as [Hb|[<-|[]]]; [apply HB in Hb; cbn in *; lia|cbn; lia].
  Qed.
  (** A new column is larger than all columns met before. *)
  Fixpoint fresh_above (seen : list nat) (p : list entry) : Prop :=
    match p with [] => True | e :: p' => (In (col_of e) seen \/ forall c, In c seen -> c < col_of e) /\ fresh_above (col_of e :: seen) p' end.
  Lemma fresh_same p : forall s s', (forall c, In c s <-> In c s') -> fresh_above s p -> fresh_above s' p.
  Proof.
    induction p as [|e p IH]; intros s s' E; [exact (fun x => x)|]. cbn. intros ([H|H] & H'); (split; [|apply IH with (col_of e :: s); [intros c; cbn; rewrite E; tauto|exact H']]).
    - left. apply E. exact H.
    - right. intros c Hc. apply H, E, Hc.
  Qed.
  Lemma meet_cols_inc (p : list entry) : forall acc cols, Forall (entry_ok szr szc) p -> fresh_above (map fst cols) p -> tiled szc cols acc -> sorted Nat.ltb cols ->
    exists acc' cols', fold_left (@meet_col R) p (acc, cols) = (acc', cols') /\ tiled szc cols' acc' /\ sorted Nat.ltb cols'.
  Proof.
    induction p as [|e p IH]; intros acc cols HO HA HT HS; [do 2 eexists; split; [reflexivity|]; split; [exact HT|exact HS]|].
    inversion HO as [|? ? (HE1 & HE2) HO']; subst. cbn [fold_left]. destruct HA as (HA & HA').
    assert (HR : cols_n e = szc (col_of e)) by (unfold cols_n; rewrite HE2; reflexivity). unfold meet_col at 2. rewrite HR. cbv zeta.
    destruct (@lb_view nat (nat * nat) Nat.eqb Nat.ltb key_order_nat (col_of e) cols HS) as [L1 L2|l1 v l2 E L1 L2 L3|l1 x l2 E L1 L2 L3].
    - rewrite L2, nth_error_len. unfold vec_insert. rewrite firstn_all, skipn_all. apply IH; [exact HO'| |constructor; exact HT|].
      + eapply fresh_same; [|exact HA']. intros c. rewrite map_app, in_app_iff. cbn. tauto.
      + apply sorted_mid_insert; [rewrite app_nil_r; exact HS|exact L1|intros ? []].
    - rewrite L3. replace (nth_error cols (length l1)) with (Some (col_of e, v)) by (rewrite E; symmetry; apply nth_error_mid). cbn [fst]. rewrite Nat.eqb_refl. cbn [negb]. apply IH; auto.
      eapply fresh_same; [|exact HA']. intros c. cbn. split; [intros [<-|H]; [rewrite E, map_app; apply in_or_app; right; left; reflexivity|exact H]|tauto].
    - exfalso. assert (Hx : col_of e < fst x) by (apply Nat.ltb_lt, L2; left; reflexivity). destruct HA as [HA|HA].
      + rewrite E, map_app in HA. apply in_app_or in HA as [HA|HA]; apply in_map_iff in HA as (y & Ey & Hy).
        * specialize (L1 y Hy). apply Nat.ltb_lt in L1. lia.
        * specialize (L2 y Hy). apply Nat.ltb_lt in L2. lia.
      + specialize (HA (fst x)). rewrite E, map_app in HA. assert (HX : fst x < col_of e) by (apply HA, in_or_app; right; left; reflexivity). lia.
  Qed.
  (** From the order of the blocks. *)
  Lemma fresh_sorted (p : list entry) : Forall (entry_ok szr szc) p -> sorted lexb p ->
    (forall e e', In e p -> In e' p -> col_of e' < col_of e -> exists e0, In e0 p /\ col_of e0 = col_of e' /\ row_of e0 <= row_of e) -> fresh_above [] p.
  Proof.
    intros HO HS H. assert (A : forall pre suf, p = pre ++ suf -> fresh_above (map (@col_of R) pre) suf).
    { intros pre suf. revert pre. induction suf as [|e suf IH]; intros pre E; [exact I|]. split.
      - destruct (in_dec Nat.eq_dec (col_of e) (map (@col_of R) pre)) as [Y|N]; [left; exact Y|]. right. intros c Hc. apply in_map_iff in Hc as (e1 & <- & H1).
        destruct (Nat.lt_trichotomy (col_of e1) (col_of e)) as [L|[L|L]]; [exact L|exfalso; apply N; apply in_map_iff; eauto|exfalso].
        destruct (H e1 e) as (e0 & I0 & C0 & R0); [rewrite E; apply in_or_app; left; exact H1|rewrite E; apply in_or_app; right; left; reflexivity|exact L|].
        apply N. rewrite <- C0. apply in_map. (* e0 comes before e1 *)
        assert (HO1 : entry_ok szr szc e1) by (rewrite Forall_forall in HO; apply HO; rewrite E; apply in_or_app; left; exact H1).
        assert (HO0 : entry_ok szr szc e0) by (rewrite Forall_forall in HO; apply HO; exact I0).
        assert (LT : lexb (fst e0) (fst e1) = true). { destruct HO0 as (-> & _), HO1 as (-> & _). cbn. rewrite orb_true_iff, andb_true_iff, !orb_true_iff, !Nat.ltb_lt, Nat.eqb_eq. rewrite C0. apply Nat.lt_eq_cases in R0 as [R0|R0]; [left; exact R0|right; split; [exact R0|left; exact L]]. }
        rewrite E in I0. apply in_app_or in I0 as [I0|I0]; [exact I0|exfalso]. revert LT. clear -HS E H1 I0. rewrite E in HS. clear E. induction pre as [|a pre IH]; [destruct H1|]. cbn in HS. inversion HS as [|? ? S1 S2]; subst. rewrite Forall_forall in S2. destruct H1 as [->|H1]; [|apply IH; auto].
        specialize (S2 e0 (in_or_app _ _ _ (or_intror I0))). cbn in S2. intros LT.
        assert (TR := proj1 (proj2 (proj2 key_order_idx)) _ _ _ LT S2). rewrite (proj1 (proj2 key_order_idx)) in TR. discriminate.
      - eapply fresh_same; [|apply (IH (pre ++ [e])); rewrite <- app_assoc; exact E]. intros c. rewrite map_app, in_app_iff. cbn. tauto. }
    exact (A [] p eq_refl).
  Qed.
  Lemma sorted_lt V (l : list (nat * V)) : sorted Nat.ltb l -> StronglySorted lt (map fst l).
  Proof. induction 1 as [|x l S IH F]; [constructor|]. cbn. constructor; [exact IH|]. rewrite Forall_forall in *. intros y Hy. apply in_map_iff in Hy as (z & <- & Hz). apply Nat.ltb_lt. apply F, Hz. Qed.
  Lemma aligned (p : list entry) M rows cols : Forall (entry_ok szr szc) p -> sorted lexb p -> (forall b, szr b = szc b) ->
    (forall e e', In e p -> In e' p -> col_of e' < col_of e -> exists e0, In e0 p /\ col_of e0 = col_of e' /\ row_of e0 <= row_of e) ->
    (forall b, (exists e, In e p /\ row_of e = b) <-> exists e, In e p /\ col_of e = b) ->
    compact_dense_single p = Ok (M, rows, cols) -> rows = cols.
  Proof.
    intros HO HS EZ HF HE EC. assert (NE : p <> []) by (intros ->; discriminate). destruct (compact_single_ok NE HO HS) as (M' & rows' & cols' & m & n & EC' & _ & _ & _ & KR & KC & _). rewrite EC in EC'. injection EC' as <- <- <-.
    pose proof (fresh_sorted HO HS HF) as FA. destruct p as [|x0 p0]; [congruence|]. set (p := x0 :: p0) in *. unfold compact_dense_single in EC. fold p in EC. unfold p at 1 in EC.
    pose proof (Forall_inv HO) as (Hx1 & Hx2). assert (HR0 : rows_n x0 = szr (row_of x0)) by (unfold rows_n; rewrite Hx2; reflexivity).
    assert (HS' : StronglySorted (fun a b => row_of a <= row_of b) p).
    { clear -HO HS. induction HS as [|a l HS IH HF]; [constructor|]. inversion HO as [|? ? (A1 & _) HO']; subst. constructor; [auto|]. rewrite Forall_forall in *.
      intros b Hb. specialize (HF b Hb). cbn beta in HF. destruct (HO' b Hb) as (B1 & _). rewrite A1, B1 in HF. cbn in HF. rewrite orb_true_iff, andb_true_iff, Nat.ltb_lt, Nat.eqb_eq in HF. lia. }
    destruct (@meet_rows_inc p (row_of x0) (rows_n x0) [(row_of x0, (0, rows_n x0))] HO HS') as (cur & m' & rows' & E1 & T1 & N1).
    { intros y [<-|Hy]; [lia|]. inversion HS' as [|? ? _ F]; subst. rewrite Forall_forall in F. apply F, Hy. }
    { rewrite HR0. apply (@tiled_snoc szr [] 0 (row_of x0)). constructor. } { repeat constructor. } { intros b [<-|[]]. cbn. lia. }
    destruct (@meet_cols_inc p 0 [] HO FA) as (n' & cols' & E2 & T2 & N2); [constructor|constructor|].
    rewrite E1, E2 in EC. destruct (rfold _ p _) as [M1| |]; try discriminate. cbn [rbind] in EC. injection EC as <- <- <-.
    assert (T3 : tiled szc rows' m'). { revert T1 EZ. clear. intros T1 EZ. induction T1; [constructor|]. rewrite EZ. constructor. exact IHT1. }
    apply (tiled_same T3 T2). apply ascending_same; [exact N1|apply sorted_lt; exact N2|]. intros b. rewrite KR, KC. apply HE.
  Qed.
End Order.
