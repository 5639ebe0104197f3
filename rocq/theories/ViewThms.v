(** Theorems about views. *)
From Verif Require Import Base Quantity QuantityProofs FlatMap SpecFlatMap FlatMapProofs FlatMapThms Ring Index SpecIndex IndexProofs
  Dense BTensor SpecBTensor LegsProofs BTensorProofs BTensorThms BTensorArith ArithProofs Tensordot Reshape SpecReshape ReshapeProofs ReshapeThms
  View SpecView ViewProofs.
Set Implicit Arguments.

Section P.
  Context {G : abgroup} {R : ring}.
  Implicit Types T V : btensor G R.
  Notation entry := (list nat * dense R)%type.
  Notation KO := key_order_idx.

  Lemma view_shape_legs T p : meta_ok T -> pat_ok (legs T) p ->
    legs (view_shape T p) = keep p (legs T) /\ qlegs (view_shape T p) = keep p (qlegs T) /\ valid (view_shape T p).
  Proof.
    intros HM HP. pose proof (legs_lens HM) as NL. pose proof (qlegs_lens HM) as NQ.
    assert (K1 : keep p (b_sbd T) = map (@length nat) (keep p (legs T))) by (rewrite <- NL; unfold lens; apply keep_map).
    assert (K2 : keep p (b_sbd T) = map (@length G) (keep p (qlegs T))) by (rewrite <- NQ; unfold lens; apply keep_map).
    unfold legs at 1, qlegs at 1. cbn [view_shape b_sbd b_ss b_cv]. rewrite K1 at 1. rewrite K2 at 1. rewrite !unpack_concat.
    split; auto. split; auto. split; [|split; [intros idx t []|constructor]].
    split; [reflexivity|]. cbn [view_shape b_sbd b_ss b_cv]. rewrite !concat_lens, <- K1, <- K2. auto.
  Qed.
  Lemma view_shape_meta T p : meta_ok T -> pat_ok (legs T) p -> view_meta p T (view_shape T p).
  Proof.
    intros HM HP. destruct (view_shape_legs p HM HP) as (A & B & _). pose proof (legs_length HM) as LL. pose proof (qlegs_length HM) as LQ.
    pose proof (legs_lens HM) as NL. pose proof HM as (M1 & _).
    split; auto. split; auto. split; [cbn; apply keep_length; congruence|].
    intros bp op HR. destruct (resolves_unique _ _ _ _ HR) as [-> _]. destruct (resolves_length _ _ _ _ HR) as (_ & L2 & _).
    split.
    - cbn [view_shape b_rule]. unfold view_rule. rewrite <- qop_assoc, qop_inv_l, qop_e_r. reflexivity.
    - intros k Hk. cbn [view_shape b_sbd] in Hk. pose proof (in_range_length _ _ Hk) as Lk.
      assert (Lk' : length k = length (keep p (legs T))) by (rewrite Lk; apply keep_length; congruence).
      assert (Lk2 : length k = length (keep (bpat (legs T) p) (qlegs T))).
      { rewrite (proj1 (resolves_keep _ _ _ _ (qlegs T) HR)). rewrite Lk. apply keep_length. congruence. }
      unfold allowed. rewrite B. cbn [view_shape b_sbd b_rule]. rewrite qprod_fill by (auto; congruence).
      rewrite (proj1 (resolves_keep _ _ _ _ (qlegs T) HR)).
      assert (Hr : in_range (b_sbd T) (fill (bpat (legs T) p) k) = true).
      { rewrite <- NL. rewrite (fill_range _ _ _ _ _ HR Lk'). unfold lens. rewrite <- keep_map. fold (lens (legs T)). rewrite NL. auto. }
      unfold view_rule. split; intros [_ H]; split; auto.
      + rewrite H, <- qop_assoc, qop_inv_l, qop_e_r. reflexivity.
      + rewrite <- H, <- qop_assoc, qop_inv_r, qop_e_r. reflexivity.
  Qed.
  Lemma shape_from_ok T p : meta_ok T -> pat_ok (legs T) p -> (forall n, In n (b_sbd T) -> 0 < n) ->
    shape_from T (zpat p) = Ok (view_shape T p).
  Proof. intros HM HP H. rewrite shape_from_eq by auto. apply valid_make. apply view_shape_legs; auto. Qed.

  Lemma shape_from_spec T p : meta_ok T -> pat_ok (legs T) p -> (forall n, In n (b_sbd T) -> 0 < n) ->
    exists S, shape_from T (zpat p) = Ok S /\ valid S /\ b_blocks S = [] /\ view_meta p T S.
  Proof.
    intros HM HP H. exists (view_shape T p). split; [apply shape_from_ok; auto|]. split; [apply view_shape_legs; auto|].
    split; [reflexivity|]. apply view_shape_meta; auto.
  Qed.

  Lemma shape_from_rejects T p : meta_ok T -> ~ pat_ok (legs T) p -> shape_from T (zpat p) = Throw InvalidArgument.
  Proof.
    intros HM HP. unfold shape_from. rewrite zpat_length. destruct (Nat.eqb_spec (length p) (b_rank T)) as [E|E]; [|reflexivity].
    cbn [negb]. rewrite sizes_tots by auto. pose proof (legs_length HM) as LL. rewrite <- LL in E. clear LL.
    replace (forallb _ _) with false; [reflexivity|]. symmetry. unfold tots.
    revert p HP E; induction (legs T) as [|l L IH]; intros [|[a|] p] HP E; try discriminate; cbn in HP.
    - tauto.
    - cbn [zpat map combine forallb]. fold (zpat p). rewrite zneg1, orb_false_r.
      destruct (Z.ltb_spec (Z.of_nat a) (Z.of_nat (sum_list l))); [|reflexivity]. cbn [andb]. apply IH; auto. intros HH. apply HP. split; auto. lia.
    - cbn [zpat map combine forallb]. fold (zpat p). rewrite orb_true_r. cbn [andb]. apply IH; auto.
  Qed.

  (** * basic_create_view *)
  Lemma view_filter_0 cur idx bp : view_filter 0 cur idx bp = Some [].
  Proof. destruct idx; reflexivity. Qed.
  Lemma view_filter_spec L p bp op idx cur : resolves L p bp op -> tail_single L p -> in_range (lens L) idx = true ->
    view_filter (length (keep p L)) cur idx bp = if t_hits bp idx then Some (keep p idx) else None.
  Proof.
    unfold lens. revert p bp op idx cur; induction L as [|l L IH]; intros [|[a|] p] [|[b|] bp] [|[o|] op] [|x idx] cur HR HT HI; cbn in HR; try tauto; try discriminate; auto.
    - destruct HR as [(H1 & _) HR]. cbn [map] in HI. apply in_range_cons in HI as [HI1 HI2].
      assert (HT' : tail_single L p).
      { intros i Hi Hf. apply (HT (Datatypes.S i)); [cbn; lia|]. intros [|j] Hj; [lia|]. apply Hf. cbn in Hj. lia. }
      cbn [keep t_hits]. destruct (length (keep p L)) as [|n] eqn:En.
      + assert (Hall : forall j, j < length p -> nth j p None <> None).
        { clear - En HR. revert p bp op En HR. induction L as [|l L IH]; intros [|[c|] p] [|[b|] bp] [|[o|] op] En HR; cbn in HR; try tauto; try discriminate.
          - intros j Hj. cbn in Hj. lia.
          - intros [|j] Hj; [discriminate|]. destruct HR as [_ HR]. apply (IH p bp op En HR). cbn in Hj. lia. }
        assert (Hl : length l = 1).
        { apply (HT 0); [cbn; lia|]. intros [|j] Hj; [discriminate|]. apply Hall. cbn in Hj. lia. }
        assert (x = 0) by lia. assert (b = 0) by lia. subst x b. specialize (IH p bp op idx cur HR HT' HI2). rewrite En, view_filter_0 in IH. exact IH.
      + cbn [view_filter]. destruct (x =? b); cbn [andb]; [|reflexivity].
        rewrite <- En. apply (IH p bp op); auto.
    - cbn [map] in HI. apply in_range_cons in HI as [HI1 HI2].
      assert (HT' : tail_single L p).
      { intros i Hi Hf. apply (HT (Datatypes.S i)); [cbn; lia|]. intros [|j] Hj; [lia|]. apply Hf. cbn in Hj. lia. }
      cbn [keep t_hits length view_filter]. rewrite (IH p bp op) by auto. destruct (t_hits bp idx); reflexivity.
  Qed.

  (** The slice of a block. *)
  Definition slice_d (op : pattern) (t : dense R) : dense R := mkD (t_rest op (dsh t)) (fun i => dv t (t_expand op i)).
  Lemma t_index_ok L p bp op k (t : dense R) : resolves L p bp op -> length k = length (keep p L) -> dsh t = pick 0 L (fill bp k) ->
    t_index (zel op) t = Ok (slice_d op t).
  Proof. intros HR Hk Ht. unfold t_index. rewrite Ht at 1. rewrite (t_positions_ok _ _ _ _ _ HR Hk). reflexivity. Qed.

  Lemma insert_end (l : list entry) x : sorted lexb (l ++ [x]) -> fm_insert_hint leqb lexb l (length l) x = l ++ [x].
  Proof.
    intros HS. destruct x as [k v]. pose proof HS as HS'. apply sorted_app in HS' as (S1 & _ & S3).
    destruct (@hint_ok _ _ _ _ KO l (length l) (k, v) S1) as [-> _]; [lia|left; reflexivity|].
    destruct (fm_insert_spec KO k v S1) as (l' & i & b & E & S4 & Hb & HA). rewrite E. cbn [fst].
    assert (Hn : assoc leqb k l = None).
    { apply (assoc_lt KO). intros e He. apply (S3 e (k, v)); [auto|left; auto]. }
    rewrite Hn in Hb. subst b. apply (sorted_ext KO); auto. intros k'. rewrite HA. rewrite (assoc_mid_insert KO) by (intros e He; apply (S3 e (k, v)); [auto|left; auto]). rewrite app_nil_r. reflexivity.
  Qed.

  Definition viewed (p bp op : pattern) (bl : list entry) : list entry :=
    flat_map (fun e => if t_hits bp (fst e) then [(keep p (fst e), slice_d op (snd e))] else []) bl.
  Lemma viewed_in p bp op bl k t : In (k, t) (viewed p bp op bl) <->
    exists b t0, In (b, t0) bl /\ t_hits bp b = true /\ k = keep p b /\ t = slice_d op t0.
  Proof.
    unfold viewed. rewrite in_flat_map. split.
    - intros ([b t0] & Hi & H). cbn [fst snd] in H. destruct (t_hits bp b) eqn:E; [|destruct H]. destruct H as [H|[]]. injection H as <- <-. eauto 6.
    - intros (b & t0 & Hi & Hh & -> & ->). exists (b, t0). split; auto. cbn [fst snd]. rewrite Hh. left; auto.
  Qed.
  Lemma viewed_sorted L p bp op bl : resolves L p bp op -> sorted lexb bl -> sorted lexb (viewed p bp op bl).
  Proof.
    intros HR. induction bl as [|[b t] bl IH]; intros HS; [constructor|]. apply sorted_cons in HS as [H1 H2].
    cbn [viewed flat_map fst snd]. fold (viewed p bp op bl). destruct (t_hits bp b) eqn:E; [|apply IH; auto]. cbn [app].
    apply sorted_cons. split; [|apply IH; auto]. intros [k t'] Hk. apply viewed_in in Hk as (b' & t0 & Hi & Hh & -> & _). cbn [fst].
    rewrite <- !(proj1 (resolves_keep _ _ _ _ _ HR)). rewrite lexb_keep by auto. apply (H1 _ Hi).
  Qed.

  Lemma view_fold T p bp op : valid T -> resolves (legs T) p bp op -> tail_single (legs T) p -> forall bl acc,
    (forall e, In e bl -> In e (b_blocks T)) -> sorted lexb (acc ++ viewed p bp op bl) ->
    rfold (fun l '(idx, t) =>
        match view_filter (length (keep p (legs T))) 0 idx bp with
        | None => Ok l
        | Some k => do t' <- t_index (zel op) t ; Ok (fm_insert_hint leqb lexb l (length l) (k, t'))
        end) bl acc = Ok (acc ++ viewed p bp op bl).
  Proof.
    intros HV HR HT. pose proof HV as [HM [HB _]]. pose proof (legs_lens HM) as NL.
    induction bl as [|[b t] bl IH]; intros acc Hin HS; [cbn; rewrite app_nil_r; auto|].
    assert (Hb : In (b, t) (b_blocks T)) by (apply Hin; left; auto).
    destruct (HB _ _ Hb) as [[A1 A2] A3]. cbn [rfold].
    rewrite (view_filter_spec _ _ _ 0 HR HT) by (rewrite NL; auto).
    cbn [viewed flat_map fst snd] in *. fold (viewed p bp op bl) in *. destruct (t_hits bp b) eqn:E.
    - apply t_hits_fill in E as [E1 E2].
      assert (Hk : length (keep p b) = length (keep p (legs T))).
      { apply keep_length. rewrite (in_range_length _ _ A1), <- NL. unfold lens. apply map_length. }
      rewrite (@t_index_ok (legs T) p bp op (keep p b) t HR Hk).
      2:{ rewrite A3. f_equal. rewrite <- (proj1 (resolves_keep _ _ _ _ b HR)). auto. }
      cbn [rbind app] in *. rewrite insert_end.
      + change (acc ++ (keep p b, slice_d op t) :: viewed p bp op bl) with (acc ++ [(keep p b, slice_d op t)] ++ viewed p bp op bl).
        rewrite app_assoc. apply IH; [intros e He; apply Hin; right; auto|]. rewrite <- app_assoc. exact HS.
      + change (acc ++ (keep p b, slice_d op t) :: viewed p bp op bl) with (acc ++ [(keep p b, slice_d op t)] ++ viewed p bp op bl) in HS.
        rewrite app_assoc in HS. apply sorted_app in HS. tauto.
    - cbn [rbind app] in *. apply IH; auto. intros e He; apply Hin; right; auto.
  Qed.

  Lemma create_view_spec T p : valid T -> pat_ok (legs T) p -> (forall n, In n (b_sbd T) -> 0 < n) -> tail_single (legs T) p ->
    exists S, basic_create_view T (zpat p) false = Ok S /\ valid S /\ view_meta p T S /\
      (forall bp op, resolves (legs T) p bp op ->
        (forall k, in_range (b_sbd S) k = true -> (stored S k <-> stored T (fill bp k))) /\
        forall k o, in_range (b_sbd S) k = true -> in_range (pick 0 (legs S) k) o = true ->
          bentry S k o = bentry T (fill bp k) (fill op o)) /\
      forall D, dense_form T D -> dense_form S (d_view p D).
  Proof.
    intros HV HP Hpos HT. pose proof HV as [HM [HB HS]]. pose proof (pat_ok_resolves _ _ HP) as HR.
    pose proof (legs_lens HM) as NL. pose proof (legs_length HM) as LL. pose proof HM as (M1 & _).
    set (bp := bpat (legs T) p) in *. set (op := opat (legs T) p) in *.
    destruct (view_shape_legs p HM HP) as (A & B & VS). pose proof (view_shape_meta p HM HP) as VM.
    pose proof (resolves_length _ _ _ _ HR) as (L1 & L2 & L3).
    assert (K1 : keep p (b_sbd T) = lens (keep p (legs T))) by (rewrite <- NL; unfold lens; apply keep_map).
    pose proof (viewed_sorted _ _ _ _ HR HS) as VSo.
    set (S := with_blocks (view_shape T p) (viewed p bp op (b_blocks T))).
    assert (HK : forall k, in_range (keep p (b_sbd T)) k = true -> length k = length (keep p (legs T))).
    { intros k Hk. rewrite (in_range_length _ _ Hk), K1. apply map_length. }
    assert (KF : forall k, in_range (keep p (b_sbd T)) k = true -> keep p (fill bp k) = k).
    { intros k Hk. rewrite <- (proj1 (resolves_keep _ _ _ _ _ HR)). apply keep_fill.
      rewrite (HK k Hk), (proj1 (resolves_keep _ _ _ _ _ HR)). apply keep_length. auto. }
    assert (SB : forall k t, In (k, t) (b_blocks S) -> exists t0, In (fill bp k, t0) (b_blocks T) /\ t = slice_d op t0 /\ in_range (keep p (b_sbd T)) k = true).
    { intros k t Hi. apply viewed_in in Hi as (b & t0 & Hi & Hh & -> & ->). apply t_hits_fill in Hh as [Hh1 Hh2]. exists t0.
      rewrite (proj1 (resolves_keep _ _ _ _ b HR)) in Hh2. rewrite <- Hh2. split; auto. split; auto.
      destruct (HB _ _ Hi) as [[A1 _] _]. rewrite Hh2 in A1. rewrite <- NL in A1.
      rewrite (fill_range _ _ _ _ _ HR) in A1; [rewrite K1; auto|]. apply keep_length. congruence. }
    assert (VM' : view_meta p T S) by exact VM.
    assert (SBack : forall k t0, in_range (keep p (b_sbd T)) k = true -> In (fill bp k, t0) (b_blocks T) -> In (k, slice_d op t0) (b_blocks S)).
    { intros k t0 Hk Hi. apply viewed_in. exists (fill bp k), t0. split; auto. split; [apply t_hits_of_fill|]. split; auto. symmetry. auto. }
    assert (LS : legs S = keep p (legs T)) by exact A.
    assert (HVS : valid S).
    { destruct VS as [MS _]. split; [exact MS|]. split; [|exact VSo]. intros k t Hi. apply SB in Hi as (t0 & Hi & -> & Hk).
      destruct (HB _ _ Hi) as [B1 B2]. split.
      - destruct VM' as (_ & _ & _ & VM4). apply (VM4 bp op HR); auto.
      - cbn [slice_d dsh]. rewrite t_rest_keep, B2, LS.
        rewrite (proj2 (resolves_keep _ _ _ _ _ HR)), <- (proj1 (resolves_keep _ _ _ _ _ HR)).
        rewrite keep_pick; [|auto|rewrite (proj1 (resolves_keep _ _ _ _ _ HR)); auto].
        rewrite (proj1 (resolves_keep _ _ _ _ _ HR)). reflexivity. }
    assert (HE : forall k o, in_range (keep p (b_sbd T)) k = true -> bentry S k o = bentry T (fill bp k) (fill op o)).
    { intros k o Hk. unfold bentry. destruct (assoc leqb (fill bp k) (b_blocks T)) as [t0|] eqn:E.
      - apply (assoc_In KO) in E. apply (SBack _ _ Hk) in E. apply (In_assoc KO) in E; [|exact VSo]. rewrite E. cbn [slice_d dv]. rewrite t_expand_fill. auto.
      - destruct (assoc leqb k (b_blocks S)) as [t|] eqn:E2; auto. exfalso. apply (assoc_In KO) in E2. apply SB in E2 as (t0 & Hi & _).
        apply (In_assoc KO) in Hi; auto. congruence. }
    exists S. split.
    { unfold basic_create_view. rewrite shape_from_ok by auto. cbn [rbind]. rewrite to_block_basis_spec by auto. fold bp op.
      replace (b_rank (view_shape T p)) with (length (keep p (legs T))) by (cbn; apply keep_length; congruence).
      rewrite (@view_fold T p bp op HV HR HT (b_blocks T) []) by auto. reflexivity. }
    split; auto. split; auto. split.
    - intros bp' op' HR'. destruct (resolves_unique _ _ _ _ HR') as [-> ->]. fold bp op. split.
      + intros k Hk. split.
        * intros [t Hi]. apply SB in Hi as (t0 & Hi & _). exists t0; auto.
        * intros [t Hi]. exists (slice_d op t). auto.
      + intros k o Hk Ho. apply HE; auto.
    - intros D [D1 D2]. split; [cbn [d_view dsh]; rewrite D1, LS; apply keep_map|].
      intros k o Hk Ho. cbn [d_view dv]. rewrite LS in *.
      assert (Lo : length o = length (keep p (legs T))).
      { rewrite (in_range_length _ _ Ho). apply pick_length. apply HK; auto. }
      rewrite <- (fill_place _ _ _ _ _ _ HR) by auto. rewrite D2.
      + symmetry. apply HE; auto.
      + rewrite <- NL, (fill_range _ _ _ _ _ HR) by auto. rewrite <- K1. auto.
      + rewrite (fill_range_off _ _ _ _ _ _ HR) by auto. auto.
  Qed.
End P.
