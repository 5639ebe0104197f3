(** Batched matrix products: the loops over sorted blocks. *)
From Verif Require Import Base Quantity QuantityProofs FlatMap SpecFlatMap FlatMapProofs FlatMapThms Ring Index SpecIndex IndexProofs Dense LegsProofs BTensor SpecBTensor BTensorProofs ArithProofs Tensordot TensordotProofs TensordotThms Bmm.
From Coq Require Import Permutation.
Set Implicit Arguments.

Lemma key_parts m k : length k = m + 2 -> k = batch_of k ++ [row_of k; col_of k] /\ length (batch_of k) = m.
Proof.
  intros H. unfold batch_of, row_of, col_of. rewrite H. replace (m + 2 - 2) with m by lia. replace (m + 2 - 1) with (S m) by lia.
  assert (E : length (skipn m k) = 2) by (rewrite skipn_length; lia).
  split; [|apply firstn_length_le; lia]. rewrite <- (firstn_skipn m k) at 1. f_equal.
  destruct (skipn m k) as [|a [|b [|c r]]] eqn:S; cbn in E; try lia.
  assert (F : forall i, nth (m + i) k 0 = nth i [a; b] 0).
  { intros i. rewrite <- S. rewrite <- (firstn_skipn m k) at 1. rewrite app_nth2; rewrite firstn_length_le by lia; [f_equal; lia|lia]. }
  pose proof (F 0) as F0. pose proof (F 1) as F1. rewrite Nat.add_0_r in F0. rewrite Nat.add_1_r in F1. rewrite F0, F1. reflexivity.
Qed.
Lemma batch_app b r c : batch_of (b ++ [r; c]) = b.
Proof. unfold batch_of. rewrite app_length. cbn. replace (length b + 2 - 2) with (length b) by lia. apply firstn_mid. Qed.
Lemma row_app b r c : row_of (b ++ [r; c]) = r.
Proof. unfold row_of. rewrite app_length. cbn. rewrite app_nth2; [|lia]. replace (length b + 2 - 2 - length b) with 0 by lia. reflexivity. Qed.
Lemma col_app b r c : col_of (b ++ [r; c]) = c.
Proof. unfold col_of. rewrite app_length. cbn. rewrite app_nth2; [|lia]. replace (length b + 2 - 1 - length b) with 1 by lia. reflexivity. Qed.

Section Prefix.
  Variable A : Type.
  Variable p : A -> bool.
  Lemma prefix_split l : l = prefix_of p l ++ skipn (length (prefix_of p l)) l.
  Proof. induction l as [|a l IH]; cbn; [reflexivity|]. destruct (p a); cbn; [f_equal; exact IH|reflexivity]. Qed.
  Lemma prefix_all l x : In x (prefix_of p l) -> p x = true.
  Proof. induction l as [|a l IH]; cbn; [tauto|]. destruct (p a) eqn:E; cbn; [intros [<-|H]; auto|tauto]. Qed.
  Lemma prefix_rest Rl l : StronglySorted Rl l -> (forall a b, In a l -> In b l -> Rl a b -> p b = true -> p a = true) ->
    forall x, In x (skipn (length (prefix_of p l)) l) -> p x = false.
  Proof.
    intros S H. induction S as [|a l S IH F]; cbn; [tauto|]. destruct (p a) eqn:E; cbn.
    - apply IH. intros; eapply H; eauto; right; auto.
    - intros x [<-|Hx]; [exact E|]. destruct (p x) eqn:E'; [|reflexivity]. rewrite <- E. symmetry.
      rewrite Forall_forall in F. apply (H a x); auto; [left; auto|right; auto].
  Qed.
End Prefix.

Section Sort.
  Variable V : Type.
  Definition sw (k : list nat) : list nat := batch_of k ++ [col_of k; row_of k].
  Definition swe (e : list nat * V) : list nat * V := (sw (fst e), snd e).
  Lemma sort_sw l : map swe (fm_sort by_column l) = fm_sort lexb (map swe l).
  Proof.
    induction l as [|x l IH]; [reflexivity|]. cbn [fm_sort fold_right map]. fold (fm_sort by_column l). fold (fm_sort lexb (map swe l)). rewrite <- IH.
    generalize (fm_sort by_column l). intros m. induction m as [|y m IHm]; cbn [ins_sorted map]; [reflexivity|].
    change (lexb (fst (swe y)) (fst (swe x))) with (by_column (fst y) (fst x)). destruct (by_column (fst y) (fst x)); cbn [map]; [f_equal; exact IHm|reflexivity].
  Qed.
  Lemma sort_col_perm (l : list (list nat * V)) : Permutation l (fm_sort by_column l).
  Proof.
    induction l as [|x l IH]; [constructor|]. cbn [fm_sort fold_right]. fold (fm_sort by_column l). rewrite IH at 1.
    generalize (fm_sort by_column l). intros m. induction m as [|y m IHm]; cbn [ins_sorted]; [reflexivity|].
    destruct (by_column (fst y) (fst x)); [|reflexivity]. rewrite perm_swap. constructor. exact IHm.
  Qed.
  Definition csorted (l : list (list nat * V)) : Prop := StronglySorted (fun a b => by_column (fst a) (fst b) = true) l.
  Lemma sw_inj m a b : length a = m + 2 -> length b = m + 2 -> sw a = sw b -> a = b.
  Proof.
    intros A B E. destruct (key_parts _ _ A) as [EA LA]. destruct (key_parts _ _ B) as [EB LB]. unfold sw in E.
    apply app_inj_len in E; [|congruence]. destruct E as [E1 E2]. injection E2 as E2 E3. rewrite EA, EB, E1, E2, E3. reflexivity.
  Qed.
  Lemma sort_csorted m (l : list (list nat * V)) : sorted lexb l -> (forall e, In e l -> length (fst e) = m + 2) -> csorted (fm_sort by_column l).
  Proof.
    intros S K. assert (HW := @fm_sort_wsorted _ V leqb lexb key_order_idx (map swe l)). rewrite <- sort_sw in HW.
    assert (ND : NoDup (map fst (fm_sort by_column l))).
    { eapply Permutation_NoDup; [apply Permutation_map, sort_col_perm|]. apply sorted_nodup. exact S. }
    assert (K' : forall e, In e (fm_sort by_column l) -> length (fst e) = m + 2) by (intros e He; apply K; eapply Permutation_in; [symmetry; apply sort_col_perm|exact He]).
    revert HW ND K'. generalize (fm_sort by_column l). intros r. clear S K. induction r as [|e r IH]; intros W ND K; [constructor|].
    cbn [map] in *. inversion W as [|? ? W1 W2]; subst. inversion ND as [|? ? N1 N2]; subst. constructor; [apply IH; auto; intros; apply K; right; auto|].
    rewrite Forall_forall in *. intros x Hx. specialize (W2 (swe x) (in_map _ _ _ Hx)). cbn in W2.
    unfold by_column. destruct (lexb (sw (fst e)) (sw (fst x))) eqn:E; [exact E|]. exfalso. apply N1.
    assert (EQ : sw (fst e) = sw (fst x)) by (apply lexb_total; auto). apply sw_inj with (m := m) in EQ; [|apply K; left; auto|apply K; right; auto].
    rewrite EQ. apply in_map. exact Hx.
  Qed.
End Sort.

Section Pairs.
  Context {R : ring}.
  Add Ring Rr : (ring_th R).
  Notation entry := (list nat * dense R)%type.
  Definition colsrt (l : list entry) : Prop := StronglySorted (fun a b => col_of (fst a) < col_of (fst b)) l.
  Definition rowsrt (l : list entry) : Prop := StronglySorted (fun a b => row_of (fst a) < row_of (fst b)) l.
  Definition SM (f : dense R -> dense R -> R) (la lb : list entry) : R :=
    sumf R (fun ea => sumf R (fun eb => if col_of (fst ea) =? row_of (fst eb) then f (snd ea) (snd eb) else rz) lb) la.
  Lemma SM_skip_l f ea la lb : (forall eb, In eb lb -> col_of (fst ea) <> row_of (fst eb)) -> SM f (ea :: la) lb = SM f la lb.
  Proof.
    intros H. unfold SM. rewrite sumf_cons, sumf_zero; [ring|]. intros eb Hb. rewrite (proj2 (Nat.eqb_neq _ _)); auto.
  Qed.
  Lemma SM_skip_r f la eb lb : (forall ea, In ea la -> col_of (fst ea) <> row_of (fst eb)) -> SM f la (eb :: lb) = SM f la lb.
  Proof.
    intros H. unfold SM. apply sumf_ext. intros ea Ha. rewrite sumf_cons, (proj2 (Nat.eqb_neq _ _)); auto. ring.
  Qed.
  Lemma SM_match f ea la eb lb : col_of (fst ea) = row_of (fst eb) -> (forall x, In x lb -> col_of (fst ea) <> row_of (fst x)) ->
    (forall x, In x la -> col_of (fst x) <> row_of (fst eb)) -> SM f (ea :: la) (eb :: lb) = radd (f (snd ea) (snd eb)) (SM f la lb).
  Proof.
    intros E H1 H2. unfold SM. rewrite sumf_cons. rewrite sumf_cons. rewrite E, Nat.eqb_refl. rewrite (sumf_zero R); [|intros x Hx; rewrite <- E, (proj2 (Nat.eqb_neq _ _)); auto].
    rewrite radd_0_r. f_equal. apply sumf_ext. intros x Hx. rewrite sumf_cons, (proj2 (Nat.eqb_neq _ _)) by auto. ring.
  Qed.
  Lemma next_eq (la lb : list entry) : next_pair la lb =
    match la, lb with
    | ea :: la', eb :: lb' =>
        if col_of (fst ea) =? row_of (fst eb) then (la, lb)
        else if col_of (fst ea) <? row_of (fst eb) then next_pair la' lb else next_pair la lb'
    | _, _ => ([], [])
    end.
  Proof. destruct la, lb; reflexivity. Qed.
  Definition np_res (la lb : list entry) (r : list entry * list entry) : Prop :=
    (r = ([], []) /\ forall ea eb, In ea la -> In eb lb -> col_of (fst ea) <> row_of (fst eb)) \/
    exists ea la' eb lb' p p', r = (ea :: la', eb :: lb') /\ la = p ++ ea :: la' /\ lb = p' ++ eb :: lb' /\ col_of (fst ea) = row_of (fst eb) /\
      forall f, SM f la lb = radd (f (snd ea) (snd eb)) (SM f la' lb').
  Lemma np_spec la lb : colsrt la -> rowsrt lb -> np_res la lb (next_pair la lb).
  Proof.
    revert lb. induction la as [|ea la IH]; intros lb Sa Sb.
    - left. rewrite next_eq. split; [reflexivity|intros ? ? []].
    - inversion Sa as [|? ? Sa' Fa]; subst. rewrite Forall_forall in Fa.
      induction lb as [|eb lb IHb]; [left; rewrite next_eq; split; [reflexivity|intros ? ? _ []]|].
      inversion Sb as [|? ? Sb' Fb]; subst. rewrite Forall_forall in Fb. rewrite next_eq.
      destruct (Nat.eqb_spec (col_of (fst ea)) (row_of (fst eb))) as [E|E].
      + right. exists ea, la, eb, lb, [], []. repeat split; auto. intros f. apply SM_match; auto.
        * intros x Hx. specialize (Fb x Hx). lia.
        * intros x Hx. specialize (Fa x Hx). lia.
      + destruct (Nat.ltb_spec (col_of (fst ea)) (row_of (fst eb))) as [L|L].
        * destruct (IH (eb :: lb) Sa' Sb) as [[-> H]|(ea' & la' & eb' & lb' & p & p' & -> & E1 & E2 & E3 & E4)].
          -- left. split; [reflexivity|]. intros x y [<-|Hx] Hy; [destruct Hy as [<-|Hy]; [auto|specialize (Fb y Hy); lia]|auto].
          -- right. exists ea', la', eb', lb', (ea :: p), p'. split; [reflexivity|]. split; [rewrite E1; reflexivity|]. split; [exact E2|]. split; [exact E3|].
             intros f. rewrite SM_skip_l; [apply E4|]. intros y [<-|Hy]; [auto|specialize (Fb y Hy); lia].
        * assert (L' : row_of (fst eb) < col_of (fst ea)) by lia. destruct (IHb Sb') as [[H0 H]|(ea' & la' & eb' & lb' & p & p' & H0 & E1 & E2 & E3 & E4)]; rewrite H0.
          -- left. split; [reflexivity|]. intros x y Hx [<-|Hy]; [destruct Hx as [<-|Hx]; [auto|specialize (Fa x Hx); lia]|auto].
          -- right. exists ea', la', eb', lb', p, (eb :: p'). split; [reflexivity|]. split; [exact E1|]. split; [rewrite E2; reflexivity|]. split; [exact E3|].
             intros f. rewrite SM_skip_r; [apply E4|]. intros x [<-|Hx]; [auto|specialize (Fa x Hx); lia].
  Qed.
  Lemma srt_suffix (Rl : entry -> entry -> Prop) p l : StronglySorted Rl (p ++ l) -> StronglySorted Rl l.
  Proof. induction p as [|a p IH]; [auto|]. cbn. intros H. inversion H; subst; auto. Qed.

  (** Reshaping. *)
  Lemma reshape_at sh (d : dense R) o o' : prod_list sh = prod_list (dsh d) -> in_range (dsh d) o = true -> rowmajor sh o' = rowmajor (dsh d) o ->
    exists d', t_reshape sh d = Ok d' /\ dsh d' = sh /\ dv d' o' = dv d o.
  Proof.
    intros E H H'. unfold t_reshape. rewrite E, Nat.eqb_refl. eexists. split; [reflexivity|]. split; [reflexivity|].
    cbn [d_reshape dv]. rewrite H', decode_rowmajor by exact H. reflexivity.
  Qed.
  Lemma rowmajor3 sb x k ob i s : in_range sb ob = true -> rowmajor [prod_list sb; x; k] [rowmajor sb ob; i; s] = rowmajor (sb ++ [x; k]) (ob ++ [i; s]).
  Proof. intros H. rewrite rowmajor_app by (apply in_range_length; exact H). cbn. lia. Qed.
  Lemma reshape3 sb x k (d : dense R) : dsh d = sb ++ [x; k] ->
    exists d', t_reshape [prod_list sb; nth (length (dsh d) - 2) (dsh d) 0; nth (length (dsh d) - 1) (dsh d) 0] d = Ok d' /\ dsh d' = [prod_list sb; x; k] /\
      forall ob i s, in_range sb ob = true -> i < x -> s < k -> dv d' [rowmajor sb ob; i; s] = dv d (ob ++ [i; s]).
  Proof.
    intros E. change (nth (length (dsh d) - 2) (dsh d) 0) with (row_of (dsh d)). change (nth (length (dsh d) - 1) (dsh d) 0) with (col_of (dsh d)).
    replace (row_of (dsh d)) with x by (rewrite E, row_app; reflexivity). replace (col_of (dsh d)) with k by (rewrite E, col_app; reflexivity).
    exists (d_reshape [prod_list sb; x; k] d). unfold t_reshape. rewrite E, prod_list_app. replace (prod_list [prod_list sb; x; k] =? prod_list sb * prod_list [x; k]) with true by (symmetry; apply Nat.eqb_eq; cbn; lia).
    split; [reflexivity|]. split; [reflexivity|]. intros ob i s H1 H2 H3. cbn [d_reshape dv]. rewrite rowmajor3 by exact H1. rewrite E, decode_rowmajor; [reflexivity|].
    rewrite in_range_app by (apply in_range_length; exact H1). rewrite H1. cbn. rewrite !andb_true_iff, !Nat.ltb_lt. auto.
  Qed.
  Lemma reshape3_back sb x y (d : dense R) : dsh d = [prod_list sb; x; y] ->
    exists d', t_reshape (sb ++ [x; y]) d = Ok d' /\ dsh d' = sb ++ [x; y] /\
      forall ob i j, in_range sb ob = true -> i < x -> j < y -> dv d' (ob ++ [i; j]) = dv d [rowmajor sb ob; i; j].
  Proof.
    intros E. exists (d_reshape (sb ++ [x; y]) d). unfold t_reshape. rewrite E, prod_list_app. replace (prod_list sb * prod_list [x; y] =? prod_list [prod_list sb; x; y]) with true by (symmetry; apply Nat.eqb_eq; cbn; lia).
    split; [reflexivity|]. split; [reflexivity|]. intros ob i j H1 H2 H3. cbn [d_reshape dv]. rewrite <- rowmajor3 by exact H1. rewrite E, decode_rowmajor; [reflexivity|].
    cbn. rewrite !andb_true_iff, !Nat.ltb_lt. repeat split; auto. apply rowmajor_lt; exact H1.
  Qed.

  Definition pmul (ob : list nat) (i j : nat) (x y : dense R) : R :=
    sumf R (fun s => rmul (dv x (ob ++ [i; s])) (dv y (ob ++ [s; j]))) (seq 0 (col_of (dsh x))).
  Lemma acc_spec sb x y (dk : nat -> nat) fuel c la lb : colsrt la -> rowsrt lb -> length la < fuel -> dsh c = [prod_list sb; x; y] ->
    (forall e, In e la -> dsh (snd e) = sb ++ [x; dk (col_of (fst e))]) -> (forall e, In e lb -> dsh (snd e) = sb ++ [dk (row_of (fst e)); y]) ->
    exists c', bmm_acc fuel (prod_list sb) c la lb = Ok c' /\ dsh c' = [prod_list sb; x; y] /\
      forall ob i j, in_range sb ob = true -> i < x -> j < y -> dv c' [rowmajor sb ob; i; j] = radd (dv c [rowmajor sb ob; i; j]) (SM (pmul ob i j) la lb).
  Proof.
    revert c la lb. induction fuel as [|fuel IH]; intros c la lb Sa Sb HF Hc HA HB; [lia|]. cbn [bmm_acc].
    destruct (np_spec Sa Sb) as [[-> H]|(ea & la' & eb & lb' & p & p' & -> & E1 & E2 & E3 & E4)].
    - exists c. split; [reflexivity|]. split; [exact Hc|]. intros ob i j _ _ _. unfold SM. rewrite sumf_zero; [ring|]. intros ea Ha.
      apply sumf_zero. intros eb Hb. rewrite (proj2 (Nat.eqb_neq _ _)); auto.
    - destruct ea as [ka ta], eb as [kb tb]. cbn [fst snd] in *.
      assert (DA : dsh ta = sb ++ [x; dk (col_of ka)]) by (apply (HA (ka, ta)); rewrite E1; apply in_or_app; right; left; auto).
      assert (DB : dsh tb = sb ++ [dk (col_of ka); y]) by (rewrite E3; apply (HB (kb, tb)); rewrite E2; apply in_or_app; right; left; auto).
      destruct (reshape3 _ _ _ _ DA) as (a & EA & SA & VA). destruct (reshape3 _ _ _ _ DB) as (b & EB & SB & VB). rewrite EA, EB. cbn [rbind].
      unfold t_baddbmm. rewrite SA, SB, Hc, !Nat.eqb_refl, leqb_refl. cbn [andb rbind].
      edestruct IH with (la := la') (lb := lb') as (c' & EC & SC & VC); [| | | | | |rewrite EC].
      + rewrite E1 in Sa. apply srt_suffix in Sa. inversion Sa; auto.
      + rewrite E2 in Sb. apply srt_suffix in Sb. inversion Sb; auto.
      + rewrite E1, app_length in HF. cbn in HF. lia.
      + reflexivity.
      + intros e He. apply HA. rewrite E1. apply in_or_app; right; right; auto.
      + intros e He. apply HB. rewrite E2. apply in_or_app; right; right; auto.
      + exists c'. split; [reflexivity|]. split; [exact SC|]. intros ob i j H1 H2 H3. rewrite VC by auto. cbn [dv nth]. rewrite E4. unfold pmul at 2. rewrite DA, col_app.
        assert (EQ : sumf R (fun s => rmul (dv a [rowmajor sb ob; i; s]) (dv b [rowmajor sb ob; s; j])) (seq 0 (dk (col_of ka))) =
                     sumf R (fun s => rmul (dv ta (ob ++ [i; s])) (dv tb (ob ++ [s; j]))) (seq 0 (dk (col_of ka)))).
        { apply sumf_ext. intros s Hs. apply in_seq in Hs. rewrite VA, VB by (auto; lia). reflexivity. }
        rewrite EQ. ring.
  Qed.
End Pairs.
