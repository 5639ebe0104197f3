(** Batched matrix products: what the loops over rows and columns leave in the result. *)
From Verif Require Import Base Quantity QuantityProofs FlatMap SpecFlatMap FlatMapProofs FlatMapThms Ring Index SpecIndex IndexProofs Dense LegsProofs BTensor SpecBTensor BTensorProofs ArithProofs Tensordot TensordotProofs TensordotThms Bmm BmmProofs.
From Coq Require Import Permutation.
Set Implicit Arguments.

Section Hit.
  Context {R : ring}.
  Add Ring Rr : (ring_th R).
  Notation entry := (list nat * dense R)%type.
  (** The blocks [ka], [kb] contribute to block [ind] of the product. *)
  Definition hit (ind ka kb : list nat) : bool :=
    leqb (batch_of ka) (batch_of ind) && (row_of ka =? row_of ind) && leqb (batch_of kb) (batch_of ind) && (col_of kb =? col_of ind) && (col_of ka =? row_of kb).
  Lemma hit_iff ind ka kb : hit ind ka kb = true <-> batch_of ka = batch_of ind /\ row_of ka = row_of ind /\ batch_of kb = batch_of ind /\ col_of kb = col_of ind /\ col_of ka = row_of kb.
  Proof. unfold hit. rewrite !andb_true_iff, !leqb_eq, !Nat.eqb_eq. tauto. Qed.
  Definition has (ind : list nat) (la lb : list entry) : bool := existsb (fun ea => existsb (fun eb => hit ind (fst ea) (fst eb)) lb) la.
  Definition Sg (ind : list nat) (f : dense R -> dense R -> R) (la lb : list entry) : R :=
    sumf R (fun ea => sumf R (fun eb => if hit ind (fst ea) (fst eb) then f (snd ea) (snd eb) else rz) lb) la.
  Lemma has_iff ind la lb : has ind la lb = true <-> exists ea eb, In ea la /\ In eb lb /\ hit ind (fst ea) (fst eb) = true.
  Proof.
    unfold has. rewrite existsb_exists. split.
    - intros (ea & Ha & H). apply existsb_exists in H as (eb & Hb & H). eauto.
    - intros (ea & eb & Ha & Hb & H). exists ea. split; auto. apply existsb_exists. eauto.
  Qed.
  Lemma has_false ind la lb : has ind la lb = false <-> forall ea eb, In ea la -> In eb lb -> hit ind (fst ea) (fst eb) = false.
  Proof.
    split.
    - intros H ea eb Ha Hb. destruct (hit ind (fst ea) (fst eb)) eqn:E; [|reflexivity]. rewrite <- H. symmetry. apply has_iff. eauto.
    - intros H. destruct (has ind la lb) eqn:E; [|reflexivity]. apply has_iff in E as (ea & eb & Ha & Hb & E). rewrite H in E; auto.
  Qed.
  Lemma Sg_none ind f la lb : has ind la lb = false -> Sg ind f la lb = rz.
  Proof. intros H. apply sumf_zero. intros ea Ha. apply sumf_zero. intros eb Hb. rewrite (proj1 (has_false _ _ _) H); auto. Qed.
  Lemma has_app_l ind la la' lb : has ind (la ++ la') lb = has ind la lb || has ind la' lb.
  Proof. unfold has. apply existsb_app. Qed.
  Lemma Sg_app_l ind f la la' lb : Sg ind f (la ++ la') lb = radd (Sg ind f la lb) (Sg ind f la' lb).
  Proof. unfold Sg. apply sumf_app. Qed.
  Lemma has_app_r ind la lb lb' : has ind la (lb ++ lb') = has ind la lb || has ind la lb'.
  Proof.
    unfold has. induction la as [|a la IH]; [reflexivity|]. cbn [existsb]. rewrite IH, existsb_app. rewrite !orb_assoc. f_equal. rewrite <- !orb_assoc. f_equal. apply orb_comm.
  Qed.
  Lemma Sg_app_r ind f la lb lb' : Sg ind f la (lb ++ lb') = radd (Sg ind f la lb) (Sg ind f la lb').
  Proof. unfold Sg. rewrite <- sumf_add. apply sumf_ext. intros a _. apply sumf_app. Qed.

  Lemma skip_eq (la lb : list entry) : skip_batch la lb =
    match la, lb with
    | ea :: la', eb :: lb' =>
        if leqb (batch_of (fst ea)) (batch_of (fst eb)) then (la, lb)
        else if lexb (batch_of (fst ea)) (batch_of (fst eb)) then skip_batch la' lb else skip_batch la lb'
    | _, _ => (la, lb)
    end.
  Proof. destruct la, lb; reflexivity. Qed.

  Variable m : nat.
  Definition keys (l : list entry) : Prop := forall e, In e l -> length (fst e) = m + 2.
  Lemma keys_suffix p l : keys (p ++ l) -> keys l. Proof. intros H e He. apply H, in_or_app. auto. Qed.
  Lemma keys_prefix p l : keys (p ++ l) -> keys p. Proof. intros H e He. apply H, in_or_app. auto. Qed.
  Lemma lex_parts a b : length a = m + 2 -> length b = m + 2 ->
    lexb a b = lexb (batch_of a) (batch_of b) || (leqb (batch_of a) (batch_of b) && ((row_of a <? row_of b) || ((row_of a =? row_of b) && (col_of a <? col_of b)))).
  Proof.
    intros A B. destruct (key_parts _ _ A) as [EA LA], (key_parts _ _ B) as [EB LB]. rewrite EA at 1. rewrite EB at 1. rewrite lexb_app by congruence.
    cbn. rewrite andb_false_r, orb_false_r. reflexivity.
  Qed.
  Lemma col_parts a b : length a = m + 2 -> length b = m + 2 ->
    by_column a b = lexb (batch_of a) (batch_of b) || (leqb (batch_of a) (batch_of b) && ((col_of a <? col_of b) || ((col_of a =? col_of b) && (row_of a <? row_of b)))).
  Proof.
    intros A B. destruct (key_parts _ _ A) as [EA LA], (key_parts _ _ B) as [EB LB]. unfold by_column. rewrite lexb_app by congruence.
    cbn. rewrite andb_false_r, orb_false_r. reflexivity.
  Qed.
  Lemma lex_le a b : lexb a b = true \/ a = b \/ lexb b a = true.
  Proof. destruct (lexb a b) eqn:E; auto. destruct (lexb b a) eqn:E'; auto. right; left. apply lexb_total; auto. Qed.
  (** Batches in sorted lists are in order. *)
  Definition ble (a b : list nat) : Prop := lexb (batch_of a) (batch_of b) = true \/ batch_of a = batch_of b.
  Lemma lex_ble a b : length a = m + 2 -> length b = m + 2 -> lexb a b = true -> ble a b.
  Proof. intros A B H. rewrite lex_parts in H by auto. apply orb_true_iff in H as [H|H]; [left; auto|]. apply andb_true_iff in H as [H _]. right. apply leqb_eq. exact H. Qed.
  Lemma col_ble a b : length a = m + 2 -> length b = m + 2 -> by_column a b = true -> ble a b.
  Proof. intros A B H. rewrite col_parts in H by auto. apply orb_true_iff in H as [H|H]; [left; auto|]. apply andb_true_iff in H as [H _]. right. apply leqb_eq. exact H. Qed.
  Lemma ble_lt a b c : lexb a (batch_of b) = true -> ble b c -> lexb a (batch_of c) = true.
  Proof. intros H [H'| <-]; [eapply lexb_trans; eauto|exact H]. Qed.

  Lemma skip_spec la lb : sorted lexb la -> csorted lb -> keys la -> keys lb ->
    exists la' lb' p p', skip_batch la lb = (la', lb') /\ la = p ++ la' /\ lb = p' ++ lb' /\
      (forall ea eb ra rb, la' = ea :: ra -> lb' = eb :: rb -> batch_of (fst ea) = batch_of (fst eb)) /\
      forall ind, has ind la lb = has ind la' lb' /\ forall f, Sg ind f la lb = Sg ind f la' lb'.
  Proof.
    revert lb. induction la as [|ea la IH]; intros lb Sa Sb Ka Kb.
    - exists [], lb, [], []. rewrite skip_eq. repeat split; auto; discriminate.
    - inversion Sa as [|? ? Sa' Fa]; subst. rewrite Forall_forall in Fa.
      induction lb as [|eb lb IHb].
      { exists (ea :: la), [], [], []. rewrite skip_eq. repeat split; auto; discriminate. }
      inversion Sb as [|? ? Sb' Fb]; subst. rewrite Forall_forall in Fb. rewrite skip_eq.
      assert (Kea : length (fst ea) = m + 2) by (apply Ka; left; auto). assert (Keb : length (fst eb) = m + 2) by (apply Kb; left; auto).
      assert (Ka' : keys la) by (intros e He; apply Ka; right; auto). assert (Kb' : keys lb) by (intros e He; apply Kb; right; auto).
      destruct (leqb (batch_of (fst ea)) (batch_of (fst eb))) eqn:E.
      { exists (ea :: la), (eb :: lb), [], []. repeat split; auto. intros ? ? ? ? [= <- <-] [= <- <-]. apply leqb_eq. exact E. }
      apply leqb_neq in E. destruct (lexb (batch_of (fst ea)) (batch_of (fst eb))) eqn:L.
      + destruct (IH (eb :: lb) Sa' Sb Ka' Kb) as (la' & lb' & p & p' & -> & E1 & E2 & E3 & E4). exists la', lb', (ea :: p), p'.
        split; [reflexivity|]. split; [rewrite E1; reflexivity|]. split; [exact E2|]. split; [exact E3|].
        assert (NO : forall ind, has ind [ea] (eb :: lb) = false).
        { intros ind. apply has_false. intros x y [<-|[]] Hy. destruct (hit ind (fst ea) (fst y)) eqn:Hh; [|reflexivity]. exfalso. apply hit_iff in Hh as (H1 & _ & H2 & _).
          assert (LL : lexb (batch_of (fst ea)) (batch_of (fst y)) = true).
          { destruct Hy as [<-|Hy]; [exact L|]. eapply ble_lt; [exact L|]. apply col_ble; auto. }
          rewrite H1, H2, lexb_irrefl in LL. discriminate. }
        intros ind. destruct (E4 ind) as [E5 E6]. rewrite <- E5. split.
        * change (ea :: la) with ([ea] ++ la). rewrite has_app_l, NO. reflexivity.
        * intros f. rewrite <- E6. change (ea :: la) with ([ea] ++ la). rewrite Sg_app_l, Sg_none by apply NO. ring.
      + assert (L' : lexb (batch_of (fst eb)) (batch_of (fst ea)) = true) by (destruct (lex_le (batch_of (fst ea)) (batch_of (fst eb))) as [H|[H|H]]; congruence).
        destruct (IHb Sb' Kb') as (la' & lb' & p & p' & -> & E1 & E2 & E3 & E4). exists la', lb', p, (eb :: p').
        split; [reflexivity|]. split; [exact E1|]. split; [rewrite E2; reflexivity|]. split; [exact E3|].
        assert (NO : forall ind, has ind (ea :: la) [eb] = false).
        { intros ind. apply has_false. intros x y Hx [<-|[]]. destruct (hit ind (fst x) (fst eb)) eqn:Hh; [|reflexivity]. exfalso. apply hit_iff in Hh as (H1 & _ & H2 & _).
          assert (LL : lexb (batch_of (fst eb)) (batch_of (fst x)) = true).
          { destruct Hx as [<-|Hx]; [exact L'|]. eapply ble_lt; [exact L'|]. apply lex_ble; auto. }
          rewrite H1, H2, lexb_irrefl in LL. discriminate. }
        intros ind. destruct (E4 ind) as [E5 E6]. rewrite <- E5. split.
        * change (eb :: lb) with ([eb] ++ lb). rewrite has_app_r, NO. reflexivity.
        * intros f. rewrite <- E6. change (eb :: lb) with ([eb] ++ lb). rewrite Sg_app_r, Sg_none by apply NO. ring.
  Qed.
End Hit.

Section Loops.
  Context {G : abgroup} {R : ring}.
  Add Ring Rr2 : (ring_th R).
  Notation entry := (list nat * dense R)%type.
  Variables (Lb : list (list nat)) (lr lk lc : list nat) (out0 : btensor G R) (LA0 LB0 : list entry).
  Notation m := (length Lb).
  Hypothesis M0 : meta_ok out0.
  Hypothesis L0 : legs out0 = Lb ++ [lr; lc].
  Hypothesis KA : keys m LA0.
  Hypothesis KB : keys m LB0.
  Hypothesis DA : forall e, In e LA0 -> dsh (snd e) = pick 0 Lb (batch_of (fst e)) ++ [nth (row_of (fst e)) lr 0; nth (col_of (fst e)) lk 0].
  Hypothesis DB : forall e, In e LB0 -> dsh (snd e) = pick 0 Lb (batch_of (fst e)) ++ [nth (row_of (fst e)) lk 0; nth (col_of (fst e)) lc 0].
  Hypothesis AL : forall ea eb ind, In ea LA0 -> In eb LB0 -> length ind = m + 2 -> hit ind (fst ea) (fst eb) = true -> allowed out0 ind.

  Definition upd_res (ind : list nat) (la lb : list entry) (out out' : btensor G R) : Prop :=
    (has ind la lb = false -> assoc leqb ind (b_blocks out') = assoc leqb ind (b_blocks out)) /\
    (has ind la lb = true -> exists t, assoc leqb ind (b_blocks out') = Some t /\
       forall ob i j, in_range (pick 0 Lb (batch_of ind)) ob = true -> i < nth (row_of ind) lr 0 -> j < nth (col_of ind) lc 0 ->
         dv t (ob ++ [i; j]) = Sg ind (pmul ob i j) la lb).

  Lemma allowed_meta (T T' : btensor G R) k : same_meta T T' -> allowed T k -> allowed T' k.
  Proof. intros (E1 & E2 & E3 & E4 & E5) [H1 H2]. unfold allowed, qlegs in *. rewrite <- E1, <- E3, <- E5. auto. Qed.
  Lemma legs_meta (T T' : btensor G R) : same_meta T T' -> legs T' = legs T.
  Proof. intros (_ & _ & E3 & E4 & _). unfold legs. rewrite E3, E4. reflexivity. Qed.
  Lemma meta_trans (T T' T'' : btensor G R) : same_meta T T' -> same_meta T' T'' -> same_meta T T''.
  Proof. unfold same_meta. intros (-> & -> & -> & -> & ->) H. exact H. Qed.
  Lemma key_ind (b : list nat) r c : length b = m -> length (b ++ [r; c]) = m + 2. Proof. intros H. rewrite app_length, H. reflexivity. Qed.

  (** Assigning twice. *)
  Lemma assign2 (T : btensor G R) idx z v : valid T -> allowed T idx -> dsh v = pick 0 (legs T) idx ->
    exists T1 T2, block_assign T idx z = Ok T1 /\ block_assign T1 idx v = Ok T2 /\ same_meta T T2 /\ valid T2 /\
      forall k, assoc leqb k (b_blocks T2) = if leqb idx k then Some v else assoc leqb k (b_blocks T).
  Proof.
    intros [HM [HB HS]] HA Ht. pose proof (proj1 HA) as Hr. pose proof HA as HA'. apply allowed_spec in HA' as [_ HA'].
    destruct (fm_subscript_assign_spec key_order_idx (undefined_tensor R) idx z HS) as [S1 S2].
    destruct (fm_subscript_assign_spec key_order_idx (undefined_tensor R) idx v S1) as [S3 S4].
    assert (S5 : forall k, assoc leqb k (fm_subscript_assign lexb (undefined_tensor R) (fm_subscript_assign lexb (undefined_tensor R) (b_blocks T) idx z) idx v) = if leqb idx k then Some v else assoc leqb k (b_blocks T)).
    { intros k. rewrite S4, S2. destruct (leqb idx k); reflexivity. }
    eexists. eexists. split; [unfold block_assign; rewrite rule_test_spec by auto; cbn [rbind]; rewrite HA'; reflexivity|].
    split; [unfold block_assign; rewrite rule_test_spec by auto; cbn [rbind]; change (allowedb (with_blocks T (fm_subscript_assign lexb (undefined_tensor R) (b_blocks T) idx z)) idx) with (allowedb T idx); rewrite HA'; reflexivity|].
    split; [repeat split|]. split; [|exact S5]. split; [exact HM|]. split; [|exact S3]. apply blocks_ok_assoc; [exact S3|]. cbn [b_blocks with_blocks].
    intros b t'. rewrite S5. destruct (leqb idx b) eqn:E.
    - apply leqb_eq in E. subst b. intros [= <-]. split; auto.
    - intros H. apply (@valid_assoc G R T); auto. split; auto.
  Qed.

  Lemma hit_fixed bt r c ind (ea eb : entry) : batch_of ind = bt -> row_of ind = r -> col_of ind = c -> batch_of (fst ea) = bt -> row_of (fst ea) = r -> batch_of (fst eb) = bt -> col_of (fst eb) = c ->
    hit ind (fst ea) (fst eb) = (col_of (fst ea) =? row_of (fst eb)).
  Proof. intros F1 F2 F3 E1 E2 E3 E4. unfold hit. rewrite F1, F2, F3, E1, E2, E3, E4. rewrite !leqb_refl, !Nat.eqb_refl. reflexivity. Qed.

  Lemma cols_spec (bt : list nat) r fuel row lb out : length bt = m -> length lb < fuel -> incl row LA0 -> incl lb LB0 -> colsrt row -> csorted lb ->
    (forall e, In e row -> batch_of (fst e) = bt /\ row_of (fst e) = r) -> (forall e, In e lb -> batch_of (fst e) = bt) -> valid out -> same_meta out0 out ->
    exists out', bmm_cols fuel row lb out = Ok out' /\ valid out' /\ same_meta out0 out' /\ forall ind, length ind = m + 2 -> upd_res ind row lb out out'.
  Proof.
    intros LBT. revert lb out. induction fuel as [|fuel IH]; intros lb out HF IA IB SA SB RA RB VO SO; [lia|].
    destruct lb as [|[kb tb] lb0].
    { cbn [bmm_cols]. exists out. split; [reflexivity|]. split; [exact VO|]. split; [exact SO|]. intros ind _. split; [reflexivity|]. intros H. exfalso. apply has_iff in H as (ea & eb & _ & [] & _). }
    cbn [bmm_cols]. set (lb := (kb, tb) :: lb0) in *. set (c := col_of kb). set (column := prefix_of (fun e : entry => col_of (fst e) =? c) lb). set (lb' := skipn (length column) lb).
    assert (ES : lb = column ++ lb') by apply prefix_split.
    assert (KL : forall e, In e lb -> length (fst e) = m + 2) by (intros e He; apply KB, IB, He).
    assert (CA : forall e, In e column -> col_of (fst e) = c) by (intros e He; apply prefix_all in He; apply Nat.eqb_eq in He; exact He).
    assert (HH : forall e, In e lb -> c <= col_of (fst e)).
    { intros e [<-|He]; [apply le_n|]. inversion SB as [|? ? _ FB]; subst. rewrite Forall_forall in FB. specialize (FB e He). cbn [fst] in FB.
      rewrite (@col_parts m) in FB; [|apply (KL (kb, tb)); left; auto|apply KL; right; auto].
      rewrite (RB e (or_intror He)) in FB. change kb with (fst (kb, tb)) in FB. rewrite (RB (kb, tb) (or_introl eq_refl)), lexb_irrefl, leqb_refl in FB. cbn [orb andb fst] in FB.
      apply orb_true_iff in FB as [FB|FB]; [apply Nat.ltb_lt in FB; unfold c; lia|]. apply andb_true_iff in FB as [FB _]. apply Nat.eqb_eq in FB. unfold c. lia. }
    assert (CR : forall e, In e lb' -> col_of (fst e) <> c).
    { intros e He. unfold lb', column in He. eapply prefix_rest in He; [|exact SB|]; [apply Nat.eqb_neq; exact He|].
      intros a b Ha Hb Hab Hpb. apply Nat.eqb_eq in Hpb. apply Nat.eqb_eq. cbn beta in Hab. rewrite (@col_parts m) in Hab by auto.
      rewrite (RB a Ha), (RB b Hb), lexb_irrefl, leqb_refl in Hab. cbn [orb andb] in Hab. pose proof (HH a Ha).
      apply orb_true_iff in Hab as [Hab|Hab]; [apply Nat.ltb_lt in Hab; lia|]. apply andb_true_iff in Hab as [Hab _]. apply Nat.eqb_eq in Hab. lia. }
    assert (IC : incl column lb) by (rewrite ES; apply incl_appl, incl_refl). assert (IC' : incl lb' lb) by (rewrite ES; apply incl_appr, incl_refl).
    assert (SC : rowsrt column).
    { assert (SC : csorted column). { rewrite ES in SB. clear -SB. revert SB. generalize column lb'. intros p q. induction p as [|a p IH]; intros H; [constructor|]. cbn in H. inversion H as [|? ? H1 H2]; subst. constructor; [apply IH; exact H1|]. rewrite Forall_forall in *. intros x Hx. apply H2, in_or_app. auto. }
      revert SC CA IC. generalize column. clear -RB KL. intros p. induction p as [|a p IH]; intros H CA IC; [constructor|]. inversion H as [|? ? H1 H2]; subst.
      constructor; [apply IH; auto; [intros; apply CA; right; auto|intros x Hx; apply IC; right; auto]|]. rewrite Forall_forall in *. intros x Hx. specialize (H2 x Hx).
      assert (Ia : In a lb) by (apply IC; left; auto). assert (Ix : In x lb) by (apply IC; right; auto). rewrite (@col_parts m) in H2 by auto.
      rewrite (RB a Ia), (RB x Ix), lexb_irrefl, leqb_refl, (CA a (or_introl eq_refl)), (CA x (or_intror Hx)), Nat.ltb_irrefl, Nat.eqb_refl in H2. cbn [orb andb] in H2. apply Nat.ltb_lt. exact H2. }
    assert (SB' : csorted lb') by (rewrite ES in SB; eapply srt_suffix; exact SB).
    assert (LL : length lb' < fuel).
    { assert (H : 0 < length column) by (unfold column, lb; cbn [prefix_of fst]; unfold c; rewrite Nat.eqb_refl; cbn; lia). apply (f_equal (@length _)) in ES. rewrite app_length in ES. lia. }
    assert (RB' : forall e, In e lb' -> batch_of (fst e) = bt) by (intros e He; apply RB, IC', He).
    assert (IB' : incl lb' LB0) by (eapply incl_tran; eauto).
    destruct (np_spec SA SC) as [[NP NO]|(ea & ra & eb & ca & p & p' & NP & E1 & E2 & E3 & E4)]; rewrite NP.
    - destruct (IH lb' out LL IA IB' SA SB' RA RB' VO SO) as (out' & EO & VO' & SO' & HO). exists out'. split; [exact EO|]. split; [exact VO'|]. split; [exact SO'|].
      intros ind Hi. assert (NC : has ind row column = false).
      { apply has_false. intros x y Hx Hy. destruct (hit ind (fst x) (fst y)) eqn:Hh; [|reflexivity]. apply hit_iff in Hh. exfalso. eapply NO; eauto; tauto. }
      destruct (HO ind Hi) as [H1 H2]. rewrite ES. split; rewrite has_app_r, NC; cbn [orb]; intros H; [auto|].
      destruct (H2 H) as (t0 & Et & Ht). exists t0. split; [exact Et|]. intros. rewrite Ht, Sg_app_r, (Sg_none _ _ _ _ NC) by auto. ring.
    - destruct ea as [ka ta], eb as [kb' tb']. cbn [fst snd] in *.
      assert (Iea : In (ka, ta) row) by (rewrite E1; apply in_or_app; right; left; auto). assert (Ieb : In (kb', tb') column) by (rewrite E2; apply in_or_app; right; left; auto).
      destruct (RA _ Iea) as [Bka Rka]. cbn [fst] in Bka, Rka. assert (Lka : length ka = m + 2) by (apply (KA (ka, ta)), IA, Iea).
      set (ind0 := bt ++ [r; c]). assert (Eind : firstn (length ka - 1) ka ++ [c] = ind0).
      { destruct (key_parts _ _ Lka) as [EK _]. rewrite EK, Bka, Rka. rewrite app_length. cbn. replace (length bt + 2 - 1) with (length bt + 1) by lia.
        rewrite firstn_app_2. unfold ind0. cbn. rewrite <- app_assoc. reflexivity. }
      rewrite Eind. assert (Li : length ind0 = m + 2) by (apply key_ind; exact LBT).
      assert (Hit : hit ind0 ka kb' = true).
      { apply hit_iff. unfold ind0. rewrite batch_app, row_app, col_app. repeat split; auto; [apply (RB (kb', tb')), IC, Ieb|apply (CA (kb', tb')), Ieb]. }
      assert (AI0 : allowed out0 ind0) by (eapply (AL (ka, ta) (kb', tb')); eauto). assert (AI : allowed out ind0) by (eapply allowed_meta; eauto).
      assert (LO : legs out = Lb ++ [lr; lc]) by (rewrite (legs_meta SO); exact L0).
      set (sb := pick 0 Lb bt). set (x := nth r lr 0). set (y := nth c lc 0).
      assert (SZ : pick 0 (legs out) ind0 = sb ++ [x; y]) by (rewrite LO; unfold ind0; rewrite pick_app by exact LBT; reflexivity).
      rewrite block_sizes_spec by (try apply VO; apply AI). rewrite SZ. cbn [rbind].
      change (firstn (length (sb ++ [x; y]) - 2) (sb ++ [x; y])) with (batch_of (sb ++ [x; y])). change (nth (length (sb ++ [x; y]) - 2) (sb ++ [x; y]) 0) with (row_of (sb ++ [x; y])).
      change (nth (length (sb ++ [x; y]) - 1) (sb ++ [x; y]) 0) with (col_of (sb ++ [x; y])). rewrite batch_app, row_app, col_app.
      destruct (@acc_spec R sb x y (fun k => nth k lk 0) (S (length row)) (d_zeros [prod_list sb; x; y]) ((ka, ta) :: ra) ((kb', tb') :: ca)) as (v & EV & SV & VV).
      { rewrite E1 in SA. eapply srt_suffix; exact SA. }
      { rewrite E2 in SC. eapply srt_suffix; exact SC. }
      { rewrite E1, app_length. cbn. lia. }
      { reflexivity. }
      { intros e He. assert (I : In e row) by (rewrite E1; apply in_or_app; right; exact He). destruct (RA e I) as [<- <-]. apply DA, IA, I. }
      { intros e He. assert (I : In e column) by (rewrite E2; apply in_or_app; right; exact He). pose proof (DB e (IB e (IC e I))) as HD. rewrite (RB e (IC e I)), (CA e I) in HD. exact HD. }
      destruct (@reshape3_back R sb x y v SV) as (v' & EV' & SV' & VV').
      destruct (@assign2 out ind0 (d_zeros [prod_list sb; x; y]) v' VO AI) as (T1 & T2 & ET1 & ET2 & ST & VT & HT); [rewrite SZ; exact SV'|].
      rewrite ET1. cbn [rbind]. rewrite EV. cbn [rbind]. rewrite EV'. cbn [rbind]. rewrite ET2. cbn [rbind].
      destruct (IH lb' T2 LL IA IB' SA SB' RA RB' VT (meta_trans SO ST)) as (out' & EO & VO' & SO' & HO). exists out'. split; [exact EO|]. split; [exact VO'|]. split; [exact SO'|].
      intros ind Hi. destruct (HO ind Hi) as [H1 H2]. rewrite ES.
      assert (HC : has ind row column = leqb ind0 ind).
      { destruct (leqb ind0 ind) eqn:E; [apply leqb_eq in E; subst ind; apply has_iff; exists (ka, ta), (kb', tb'); auto|].
        apply has_false. intros e e' He He'. destruct (hit ind (fst e) (fst e')) eqn:Hh; [|reflexivity]. exfalso. apply leqb_neq in E. apply E.
        apply hit_iff in Hh as (Q1 & Q2 & Q3 & Q4 & _). destruct (key_parts _ _ Hi) as [-> _]. destruct (RA e He) as [W1 W2]. unfold ind0. rewrite <- W1, <- W2, <- (CA e' He'), Q1, Q2, Q4. reflexivity. }
      split; rewrite has_app_r, HC; intros H.
      + apply orb_false_iff in H as [Hq Hn]. rewrite (H1 Hn), HT, Hq. reflexivity.
      + destruct (leqb ind0 ind) eqn:E.
        * apply leqb_eq in E. subst ind. assert (NL : has ind0 row lb' = false).
          { apply has_false. intros e e' He He'. destruct (hit ind0 (fst e) (fst e')) eqn:Hh; [|reflexivity]. exfalso. apply hit_iff in Hh as (_ & _ & _ & Q4 & _). apply (CR e' He'). rewrite Q4. unfold ind0. apply col_app. }
          exists v'. split; [rewrite (H1 NL), HT, leqb_refl; reflexivity|]. unfold ind0 at 1 2 3. rewrite batch_app, row_app, col_app. fold sb x y. intros ob i j O1 O2 O3.
          rewrite VV', VV by auto. cbn [d_zeros d_full dv]. rewrite Sg_app_r, (Sg_none _ _ _ _ NL).
          assert (EQ : Sg ind0 (pmul ob i j) row column = SM (pmul ob i j) row column).
          { unfold Sg, SM. apply sumf_ext. intros e He. apply sumf_ext. intros e' He'. destruct (RA e He) as [W1 W2]. rewrite (@hit_fixed bt r c); auto; [unfold ind0; apply batch_app|unfold ind0; apply row_app|unfold ind0; apply col_app]. }
          rewrite EQ, E4. rewrite SM_match; [cbn [snd]; ring|exact E3| |].
          -- intros e He. rewrite E2 in SC. apply srt_suffix in SC. inversion SC as [|? ? _ F]; subst. rewrite Forall_forall in F. specialize (F e He). cbn [fst] in *. lia.
          -- intros e He. rewrite E1 in SA. apply srt_suffix in SA. inversion SA as [|? ? _ F]; subst. rewrite Forall_forall in F. specialize (F e He). cbn [fst] in *. lia.
        * cbn [orb] in H. destruct (H2 H) as (t0 & Et & Ht). exists t0. split; [exact Et|]. intros. rewrite Ht, Sg_app_r, (@Sg_none R ind (pmul ob i j) row column) by auto. ring.
  Qed.

  Lemma srt_prefix (Rl : entry -> entry -> Prop) p q : StronglySorted Rl (p ++ q) -> StronglySorted Rl p.
  Proof.
    induction p as [|a p IH]; intros H; [constructor|]. cbn in H. inversion H as [|? ? H1 H2]; subst. constructor; [apply IH; exact H1|].
    rewrite Forall_forall in *. intros x Hx. apply H2, in_or_app. auto.
  Qed.
  Lemma rows_spec fuel la lb out : length la < fuel -> incl la LA0 -> incl lb LB0 -> sorted lexb la -> csorted lb -> valid out -> same_meta out0 out ->
    exists out', bmm_rows fuel la lb out = Ok out' /\ valid out' /\ same_meta out0 out' /\ forall ind, length ind = m + 2 -> upd_res ind la lb out out'.
  Proof.
    revert la lb out. induction fuel as [|fuel IH]; intros la lb out HF IA IB SA SB VO SO; [lia|].
    destruct (@skip_spec R m la lb SA SB) as (la1 & lb1 & p & p' & E & E1 & E2 & E3 & E4); [intros e He; apply KA, IA, He|intros e He; apply KB, IB, He|].
    cbn [bmm_rows]. rewrite E.
    assert (DONE : (la1 = [] \/ lb1 = []) -> exists out', Ok out = Ok out' /\ valid out' /\ same_meta out0 out' /\ forall ind, length ind = m + 2 -> upd_res ind la lb out out').
    { intros D. exists out. split; [reflexivity|]. split; [exact VO|]. split; [exact SO|]. intros ind _. split; [reflexivity|]. intros H. exfalso. rewrite (proj1 (E4 ind)) in H.
      apply has_iff in H as (ea & eb & Ha & Hb & _). destruct D as [-> | ->]; [destruct Ha|destruct Hb]. }
    destruct la1 as [|[ka ta] la2]; [apply DONE; auto|]. destruct lb1 as [|[kb tb] lb2]; [apply DONE; auto|]. clear DONE E.
    assert (EB : batch_of ka = batch_of kb) by exact (E3 _ _ _ _ eq_refl eq_refl). clear E3.
    set (la1 := (ka, ta) :: la2) in *. set (lb1 := (kb, tb) :: lb2) in *.
    assert (IA1 : incl la1 LA0) by (intros e He; apply IA; rewrite E1; apply in_or_app; auto). assert (IB1 : incl lb1 LB0) by (intros e He; apply IB; rewrite E2; apply in_or_app; auto).
    assert (SA1 : sorted lexb la1) by (rewrite E1 in SA; eapply srt_suffix; exact SA). assert (SB1 : csorted lb1) by (rewrite E2 in SB; eapply srt_suffix; exact SB).
    assert (K1 : forall e, In e la1 -> length (fst e) = m + 2) by (intros e He; apply KA, IA1, He). assert (K2 : forall e, In e lb1 -> length (fst e) = m + 2) by (intros e He; apply KB, IB1, He).
    set (P := fun e : entry => leqb (batch_of ka) (batch_of (fst e)) && (row_of (fst e) =? row_of ka)). set (Q := fun e : entry => leqb (batch_of (fst e)) (batch_of kb)).
    set (row := prefix_of P la1). set (rest := skipn (length row) la1). set (bat := prefix_of Q lb1).
    assert (ER : la1 = row ++ rest) by apply prefix_split. assert (ET : lb1 = bat ++ skipn (length bat) lb1) by apply prefix_split. set (tail := skipn (length bat) lb1) in *.
    assert (RA : forall e, In e row -> batch_of (fst e) = batch_of ka /\ row_of (fst e) = row_of ka).
    { intros e He. apply prefix_all in He. unfold P in He. apply andb_true_iff in He as [H1 H2]. apply leqb_eq in H1. apply Nat.eqb_eq in H2. auto. }
    assert (RB : forall e, In e bat -> batch_of (fst e) = batch_of ka).
    { intros e He. apply prefix_all in He. unfold Q in He. apply leqb_eq in He. congruence. }
    assert (HP : forall e, In e la1 -> e = (ka, ta) \/ lexb ka (fst e) = true).
    { intros e [<-|He]; [auto|]. right. inversion SA1 as [|? ? _ F]; subst. rewrite Forall_forall in F. apply (F e He). }
    assert (HQ : forall e, In e lb1 -> e = (kb, tb) \/ by_column kb (fst e) = true).
    { intros e [<-|He]; [auto|]. right. inversion SB1 as [|? ? _ F]; subst. rewrite Forall_forall in F. apply (F e He). }
    assert (Lka : length ka = m + 2) by (apply (K1 (ka, ta)); left; auto). assert (Lkb : length kb = m + 2) by (apply (K2 (kb, tb)); left; auto).
    assert (RR : forall e, In e rest -> ~ (batch_of (fst e) = batch_of ka /\ row_of (fst e) = row_of ka)).
    { intros e He [W1 W2]. assert (F : P e = false).
      { unfold rest, row in He. eapply prefix_rest in He; [exact He|exact SA1|]. clear e He W1 W2. intros a b Ha Hb Hab Hpb. cbn beta in Hab.
        unfold P in *. apply andb_true_iff in Hpb as [P1 P2]. apply leqb_eq in P1. apply Nat.eqb_eq in P2.
        destruct (HP a Ha) as [->|Hka]; [cbn [fst]; rewrite leqb_refl, Nat.eqb_refl; reflexivity|].
        rewrite (@lex_parts m) in Hab, Hka by auto. rewrite <- P1 in Hab.
        apply orb_true_iff in Hka as [Hka|Hka]; apply orb_true_iff in Hab as [Hab|Hab].
        - pose proof (lexb_trans _ _ _ Hka Hab) as Hc. rewrite lexb_irrefl in Hc. discriminate.
        - apply andb_true_iff in Hab as [Hab _]. apply leqb_eq in Hab. rewrite Hab, lexb_irrefl in Hka. discriminate.
        - apply andb_true_iff in Hka as [Hka _]. apply leqb_eq in Hka. rewrite Hka, lexb_irrefl in Hab. discriminate.
        - apply andb_true_iff in Hka as [Hka1 Hka2]. apply andb_true_iff in Hab as [_ Hab2]. rewrite Hka1. cbn [andb]. apply Nat.eqb_eq.
          rewrite P2 in Hab2. apply orb_true_iff in Hka2 as [Hka2|Hka2]; apply orb_true_iff in Hab2 as [Hab2|Hab2]; repeat (rewrite andb_true_iff in * ); rewrite ?Nat.ltb_lt, ?Nat.eqb_eq in *; lia. }
      unfold P in F. rewrite W1, W2, leqb_refl, Nat.eqb_refl in F. discriminate. }
    assert (RT : forall e, In e tail -> batch_of (fst e) <> batch_of ka).
    { intros e He W. assert (F : Q e = false).
      { unfold tail, bat in He. eapply prefix_rest in He; [exact He|exact SB1|]. clear e He W. intros a b Ha Hb Hab Hpb. cbn beta in Hab.
        unfold Q in *. apply leqb_eq in Hpb. apply leqb_eq. destruct (HQ a Ha) as [->|Hka]; [reflexivity|].
        apply (@col_ble m) in Hka; auto. apply (@col_ble m) in Hab; auto. destruct Hka as [Hka|Hka]; [|congruence]. destruct Hab as [Hab|Hab]; [|congruence].
        pose proof (lexb_trans _ _ _ Hka Hab) as Hc. rewrite Hpb, lexb_irrefl in Hc. discriminate. }
      unfold Q in F. rewrite W, EB, leqb_refl in F. discriminate. }
    assert (IR : incl row la1) by (rewrite ER; apply incl_appl, incl_refl). assert (IBt : incl bat lb1) by (rewrite ET; apply incl_appl, incl_refl).
    assert (CS : colsrt row).
    { assert (SR : sorted lexb row) by (rewrite ER in SA1; eapply srt_prefix; exact SA1). revert SR RA IR. generalize row. clear -K1. intros q. induction q as [|a q IHq]; intros S RA IR; [constructor|].
      inversion S as [|? ? S1 S2]; subst. constructor; [apply IHq; auto; [intros; apply RA; right; auto|intros x Hx; apply IR; right; auto]|].
      rewrite Forall_forall in *. intros x Hx. specialize (S2 x Hx). rewrite (@lex_parts m) in S2; [|apply K1, IR; left; auto|apply K1, IR; right; auto].
      destruct (RA a (or_introl eq_refl)) as [W1 W2]. destruct (RA x (or_intror Hx)) as [W3 W4]. rewrite W1, W2, W3, W4, lexb_irrefl, leqb_refl, Nat.ltb_irrefl, Nat.eqb_refl in S2. cbn [orb andb] in S2. apply Nat.ltb_lt. exact S2. }
    destruct (@cols_spec (batch_of ka) (row_of ka) (S (length bat)) row bat out) as (out1 & EO1 & VO1 & SO1 & HO1); auto.
    { apply (key_parts _ _ Lka). }
    { eapply incl_tran; eauto. }
    { eapply incl_tran; eauto. }
    { rewrite ET in SB1. eapply srt_prefix; exact SB1. }
    rewrite EO1. cbn [rbind].
    destruct (IH rest lb1 out1) as (out' & EO & VO' & SO' & HO); auto.
    { assert (H : 0 < length row) by (unfold row, la1, P; cbn [prefix_of fst]; rewrite leqb_refl, Nat.eqb_refl; cbn; lia). apply (f_equal (@length _)) in ER. rewrite app_length in ER.
      apply (f_equal (@length _)) in E1. rewrite app_length in E1. lia. }
    { intros e He. apply IA1. rewrite ER. apply in_or_app. auto. }
    { rewrite ER in SA1. eapply srt_suffix; exact SA1. }
    exists out'. split; [exact EO|]. split; [exact VO'|]. split; [exact SO'|].
    intros ind Hi. destruct (E4 ind) as [E5 E6]. destruct (HO1 ind Hi) as [A1 A2]. destruct (HO ind Hi) as [B1 B2].
    assert (NT : has ind row tail = false).
    { apply has_false. intros x y Hx Hy. destruct (hit ind (fst x) (fst y)) eqn:Hh; [|reflexivity]. exfalso. apply hit_iff in Hh as (Q1 & _ & Q3 & _). apply (RT y Hy). destruct (RA x Hx). congruence. }
    assert (EX : has ind row bat = true -> has ind rest lb1 = false).
    { intros H. apply has_iff in H as (x & y & Hx & Hy & Hh). apply has_false. intros x' y' Hx' Hy'. destruct (hit ind (fst x') (fst y')) eqn:Hh'; [|reflexivity]. exfalso.
      apply hit_iff in Hh as (Q1 & Q2 & _). apply hit_iff in Hh' as (Q1' & Q2' & _). apply (RR x' Hx'). destruct (RA x Hx). split; congruence. }
    assert (HS : has ind la1 lb1 = has ind row bat || has ind rest lb1).
    { rewrite ER, has_app_l. f_equal. rewrite ET, has_app_r, NT, orb_false_r. reflexivity. }
    assert (GS : forall f, Sg ind f la1 lb1 = radd (Sg ind f row bat) (Sg ind f rest lb1)).
    { intros f. rewrite ER at 1. rewrite Sg_app_l. f_equal. rewrite ET, Sg_app_r, (Sg_none _ f _ _ NT). ring. }
    split; rewrite E5, HS; intros H.
    - apply orb_false_iff in H as [H1 H2]. rewrite (B1 H2), (A1 H1). reflexivity.
    - destruct (has ind row bat) eqn:HB.
      + destruct (A2 eq_refl) as (t0 & Et & Ht). exists t0. rewrite (B1 (EX eq_refl)). split; [exact Et|]. intros ob i j O1 O2 O3. rewrite Ht, E6, GS, (Sg_none _ _ _ _ (EX eq_refl)) by auto. ring.
      + cbn [orb] in H. destruct (B2 H) as (t0 & Et & Ht). exists t0. split; [exact Et|]. intros ob i j O1 O2 O3. rewrite Ht, E6, GS, (@Sg_none R ind _ row bat) by auto. ring.
  Qed.
End Loops.
