From Verif Require Import Base Quantity QuantityProofs FlatMap SpecFlatMap FlatMapProofs Ring Index SpecIndex IndexProofs
  Dense BTensor SpecBTensor LegsProofs BTensorProofs.
From Coq Require Import Permutation Sorted.
Set Implicit Arguments.

Lemma map_nth_seq A (d : A) l : map (fun i => nth i l d) (seq 0 (length l)) = l.
Proof.
  apply nth_ext' with (d := d); rewrite map_length, seq_length; auto.
  intros k Hk. rewrite nth_indep with (d' := nth 0 l d) by (rewrite map_length, seq_length; auto).
  rewrite (map_nth (fun i => nth i l d)), seq_nth by auto. reflexivity.
Qed.
Lemma fold_left_map' A B C (f : A -> B -> A) (g : C -> B) l a :
  fold_left (fun x c => f x (g c)) l a = fold_left f (map g l) a.
Proof. revert a; induction l; intros; cbn; auto. Qed.
Lemma address_lt sbd d b : d < length sbd -> b < nth d sbd 0 -> address sbd d b < sum_list sbd.
Proof.
  unfold address. revert d; induction sbd as [|n sbd IH]; intros d Hd Hb; cbn in Hd; [lia|].
  destruct d; cbn [nth firstn] in *; rewrite ?sum_list_cons; [cbn; lia|]. specialize (IH d ltac:(lia) Hb). lia.
Qed.
Lemma pick_psection A (dflt : A) sbd packed idx i : in_range sbd idx = true -> i < length sbd ->
  psection dflt sbd packed i (nth i idx 0) = nth i (pick dflt (unpack sbd packed) idx) dflt.
Proof.
  intros Hr Hi. pose proof (in_range_length _ _ Hr) as Hl. apply in_range_nth in Hr as [_ Hr].
  rewrite psection_unpack by auto. rewrite pick_nth; rewrite ?unpack_length; auto.
Qed.

Section T.
  Variable G : abgroup.
  Variable R : ring.
  Implicit Types T : btensor G R.
  Notation KO := key_order_idx.

  (** * check_tensor *)
  Lemma section_qtt_ok T idx i : length (b_cv T) = sum_list (b_sbd T) -> in_range (b_sbd T) idx = true -> i < length (b_sbd T) ->
    section_conserved_qtt T i (nth i idx 0) = Ok (nth i (pick (qe G) (qlegs T) idx) (qe G)).
  Proof.
    intros H Hr Hi. unfold section_conserved_qtt. pose proof Hr as Hr'. apply in_range_nth in Hr' as [_ Hr'].
    rewrite rnth_Ok with (d := qe G) by (rewrite H; apply address_lt; auto). f_equal.
    apply (pick_psection (qe G) (b_sbd T) (b_cv T) _ Hr Hi).
  Qed.
  Lemma section_size_ok T idx i : sum_list (b_sbd T) = length (b_ss T) -> in_range (b_sbd T) idx = true -> i < length (b_sbd T) ->
    section_size T i (nth i idx 0) = Ok (nth i (pick 0 (legs T) idx) 0).
  Proof.
    intros H Hr Hi. unfold section_size. pose proof Hr as Hr'. apply in_range_nth in Hr' as [_ Hr'].
    rewrite rnth_Ok with (d := 0) by (rewrite <- H; apply address_lt; auto). f_equal.
    apply (pick_psection 0 (b_sbd T) (b_ss T) _ Hr Hi).
  Qed.

  Definition stepA T (ind : list nat) : bool * G -> nat -> result (bool * G) :=
    fun '(ok, q) i =>
        do n <- rnth (b_sbd T) i ;
        do x <- rnth ind i ;
        do c <- section_conserved_qtt T i x ;
        Ok (ok && (x <? n), qop G q c).
  Definition stepB T (ind sh : list nat) : bool -> nat -> result bool :=
    fun ok i =>
        do x <- rnth ind i ;
        do sz <- section_size T i x ;
        do dsz <- rnth sh i ;
        Ok (ok && (sz =? dsz)).

  Lemma stepA_inv T ind k n ok q q' : rfold (stepA T ind) (seq k n) (ok, q) = Ok (true, q') ->
    ok = true /\ forall i, k <= i < k + n -> i < length (b_sbd T) /\ nth i ind 0 < nth i (b_sbd T) 0.
  Proof.
    revert k ok q; induction n as [|n IH]; intros k ok q H.
    - cbn in H. injection H as -> _. split; auto. lia.
    - cbn [seq rfold] in H. unfold stepA at 1 in H.
      destruct (rnth (b_sbd T) k) as [m| |] eqn:E1; cbn [rbind] in H; try discriminate.
      destruct (rnth ind k) as [x| |] eqn:E2; cbn [rbind] in H; try discriminate.
      destruct (section_conserved_qtt T k x) as [c| |] eqn:E3; cbn [rbind] in H; try discriminate.
      apply IH in H as [H1 H2]. apply andb_true_iff in H1 as [-> H1]. split; auto.
      apply (rnth_inv 0) in E1 as [E1 <-]. apply (rnth_inv 0) in E2 as [E2 <-]. apply Nat.ltb_lt in H1.
      intros i Hi. destruct (Nat.eq_dec i k) as [->|]; [auto|]. apply H2. lia.
  Qed.
  Lemma stepA_ok T ind ok : length (b_cv T) = sum_list (b_sbd T) -> in_range (b_sbd T) ind = true ->
    rfold (stepA T ind) (seq 0 (length ind)) (ok, qe G) = Ok (ok, qprod G (pick (qe G) (qlegs T) ind)).
  Proof.
    intros Hc Hr. pose proof (in_range_length _ _ Hr) as Hl. pose proof Hr as Hr'. apply in_range_nth in Hr' as [_ Hr'].
    rewrite rfold_pure with (g := fun s i => (fst s, qop G (snd s) (nth i (pick (qe G) (qlegs T) ind) (qe G)))).
    - f_equal. assert (H : forall l q, fold_left (fun s i => (fst s, qop G (snd s) (nth i (pick (qe G) (qlegs T) ind) (qe G)))) l (ok, q)
        = (ok, fold_left (fun q i => qop G q (nth i (pick (qe G) (qlegs T) ind) (qe G))) l q)).
      { induction l as [|i l IH]; intros q; cbn [fold_left fst snd]; [reflexivity|apply IH]. }
      rewrite H. f_equal.
      rewrite (fold_left_map' (qop G) (fun i => nth i (pick (qe G) (qlegs T) ind) (qe G))).
      assert (HL : length ind = length (pick (qe G) (qlegs T) ind)).
      { unfold qlegs. rewrite pick_length; rewrite unpack_length; auto. }
      rewrite HL at 1. rewrite map_nth_seq. apply fold_qop_e.
    - intros [o q] i Hi. apply in_seq in Hi. unfold stepA. rewrite rnth_Ok with (d := 0) by lia. cbn [rbind].
      rewrite rnth_Ok with (d := 0) by lia. cbn [rbind].
      rewrite section_qtt_ok by (auto; lia). cbn [rbind fst snd].
      specialize (Hr' i ltac:(lia)). rewrite (proj2 (Nat.ltb_lt _ _) Hr'), andb_true_r. reflexivity.
  Qed.
  Lemma stepB_ok T ind sh ok n : sum_list (b_sbd T) = length (b_ss T) -> in_range (b_sbd T) ind = true ->
    n <= length (b_sbd T) -> n <= length sh ->
    rfold (stepB T ind sh) (seq 0 n) ok
    = Ok (ok && forallb (fun i => nth i (pick 0 (legs T) ind) 0 =? nth i sh 0) (seq 0 n))%bool.
  Proof.
    intros Hs Hr Hn Hn'. pose proof (in_range_length _ _ Hr) as Hl.
    rewrite rfold_pure with (g := fun (ok : bool) i => (ok && (nth i (pick 0 (legs T) ind) 0 =? nth i sh 0))%bool).
    - f_equal. generalize (seq 0 n). intros l. revert ok. induction l as [|i l IH]; intros ok; cbn; [rewrite andb_true_r; auto|].
      rewrite IH. rewrite andb_assoc. reflexivity.
    - intros o i Hi. apply in_seq in Hi. unfold stepB. rewrite rnth_Ok with (d := 0) by lia. cbn [rbind].
      rewrite section_size_ok by (auto; lia). cbn [rbind]. rewrite rnth_Ok with (d := 0) by lia. reflexivity.
  Qed.

  Lemma check_block_true T e : length (b_cv T) = sum_list (b_sbd T) -> length (b_sbd T) = b_rank T ->
    sum_list (b_sbd T) = length (b_ss T) ->
    check_block T e = Ok true <-> allowed T (fst e) /\ dsh (snd e) = pick 0 (legs T) (fst e).
  Proof.
    intros Hc Hr Hs. destruct e as [ind t]. cbn [fst snd]. unfold check_block.
    fold (stepA T ind). fold (stepB T ind (dsh t)).
    assert (Hmain : in_range (b_sbd T) ind = true ->
       (do s <- rfold (stepA T ind) (seq 0 (length ind)) (length ind =? b_rank T, qe G);
        let ok := fst s && qeqb G (snd s) (b_rule T) in
        if length (dsh t) =? b_rank T then rfold (stepB T ind (dsh t)) (seq 0 (b_rank T)) ok else Ok false) = Ok true
       <-> allowed T ind /\ dsh t = pick 0 (legs T) ind).
    { intros Hi. pose proof (in_range_length _ _ Hi) as Hl. rewrite stepA_ok by auto. cbn [rbind fst snd].
      rewrite Hl, Hr, Nat.eqb_refl. cbn [andb].
      assert (HL : length (pick 0 (legs T) ind) = b_rank T).
      { unfold legs. rewrite pick_length; rewrite unpack_length; lia. }
      destruct (length (dsh t) =? b_rank T) eqn:E.
      - apply Nat.eqb_eq in E. rewrite stepB_ok by (auto; lia). split.
        + intros [= H]. apply andb_true_iff in H as [H1 H2]. apply qeqb_spec in H1. split; [split; auto|].
          rewrite forallb_forall in H2. apply nth_ext' with (d := 0); [lia|]. intros k Hk.
          symmetry. apply Nat.eqb_eq. apply H2. apply in_seq. lia.
        + intros [[_ H1] H2]. f_equal. apply andb_true_iff. split; [apply qeqb_spec; auto|].
          apply forallb_forall. intros i _. rewrite H2. apply Nat.eqb_refl.
      - split; [discriminate|]. intros [_ H]. apply Nat.eqb_neq in E. rewrite H in E. lia. }
    split.
    - intros H. apply Hmain; [|exact H].
      destruct (rfold (stepA T ind) _ _) as [[ok q]| |] eqn:EA; cbn [rbind] in H; try discriminate. cbn [fst snd] in H.
      destruct (length (dsh t) =? b_rank T) eqn:E; [|discriminate].
      assert (Hok : ok = true).
      { destruct ok; auto. cbn [andb] in H. exfalso. revert H. generalize (seq 0 (b_rank T)). intros l. induction l as [|i l IH]; cbn [rfold].
        - discriminate.
        - unfold stepB at 1. destruct (rnth ind i); cbn [rbind]; try discriminate.
          destruct (section_size T i a); cbn [rbind]; try discriminate.
          destruct (rnth (dsh t) i); cbn [rbind]; try discriminate. cbn [andb]. exact IH. }
      subst ok. apply stepA_inv in EA as [E1 E2]. apply Nat.eqb_eq in E1. apply in_range_nth. split; [lia|].
      intros k Hk. apply E2. lia.
    - intros [H1 H2]. apply Hmain; auto. apply H1.
  Qed.

  Lemma check_fold_true T l ok :
    rfold (fun ok e => do b <- check_block T e ; Ok (ok && b)) l ok = Ok true
    <-> ok = true /\ forall e, In e l -> check_block T e = Ok true.
  Proof.
    revert ok; induction l as [|e l IH]; intros ok; cbn [rfold].
    - split; [intros [= ->]; split; auto; intros _ []|intros [-> _]; auto].
    - destruct (check_block T e) as [b| |] eqn:E; cbn [rbind].
      + rewrite IH, andb_true_iff. split.
        * intros [[-> ->] H]. split; auto. intros e' [<-|H']; auto.
        * intros [-> H]. split; [split; auto|intros; apply H; right; auto].
          specialize (H e (or_introl eq_refl)). congruence.
      + split; [discriminate|]. intros [_ H]. specialize (H e (or_introl eq_refl)). congruence.
      + split; [discriminate|]. intros [_ H]. specialize (H e (or_introl eq_refl)). congruence.
  Qed.
  Lemma check_tensor_true T : length (b_cv T) = sum_list (b_sbd T) ->
    check_tensor T = Ok true <->
    length (b_sbd T) = b_rank T /\ sum_list (b_sbd T) = length (b_ss T) /\ blocks_ok T.
  Proof.
    intros Hc. unfold check_tensor. rewrite check_fold_true, andb_true_iff, !Nat.eqb_eq. split.
    - intros [[H1 H2] H3]. split; auto. split; auto. intros idx t Hi. apply (@check_block_true T (idx, t)); auto.
    - intros [H1 [H2 H3]]. split; auto. intros [idx t] Hi. apply check_block_true; auto.
  Qed.
  (** The check reports rather than misbehaves when indices are in range. *)
  Lemma check_block_decides T e : length (b_cv T) = sum_list (b_sbd T) -> length (b_sbd T) = b_rank T ->
    sum_list (b_sbd T) = length (b_ss T) -> in_range (b_sbd T) (fst e) = true -> exists b, check_block T e = Ok b.
  Proof.
    intros Hc Hr Hs Hi. destruct e as [ind t]. cbn [fst] in Hi. unfold check_block. fold (stepA T ind). fold (stepB T ind (dsh t)).
    rewrite stepA_ok by auto. cbn [rbind]. destruct (length (dsh t) =? b_rank T) eqn:E; eauto.
    apply Nat.eqb_eq in E. rewrite stepB_ok by (auto; lia). eauto.
  Qed.
  Lemma check_tensor_decides T : meta_ok T -> (forall idx t, In (idx, t) (b_blocks T) -> in_range (b_sbd T) idx = true) ->
    check_tensor T = Ok true /\ blocks_ok T \/ check_tensor T = Ok false /\ ~ blocks_ok T.
  Proof.
    intros HM HI. pose proof HM as [H1 [H2 H3]].
    assert (exists b, check_tensor T = Ok b) as [b Hb].
    { unfold check_tensor. revert HI. generalize ((b_rank T =? length (b_sbd T)) && (sum_list (b_sbd T) =? length (b_ss T)))%bool.
      generalize (b_blocks T). intros l. induction l as [|[i t] l IH]; intros ok HI; cbn [rfold]; [eauto|].
      destruct (@check_block_decides T (i, t)) as [b Hb]; auto; [apply (HI i t); left; auto|]. rewrite Hb. cbn [rbind].
      apply IH. intros i' t' H'. apply (HI i' t'). right; auto. }
    pose proof (check_tensor_true T (eq_sym H3)) as HT. rewrite Hb in *. destruct b; [left|right]; split; auto.
    - apply HT; auto.
    - intros HB. assert (Ok false = Ok true) by (apply HT; auto). discriminate.
  Qed.
  Lemma make_valid T T' : length (b_cv T) = sum_list (b_sbd T) -> sorted lexb (b_blocks T) -> make T = Ok T' -> T' = T /\ valid T.
  Proof.
    intros Hc Hs H. unfold make in H. destruct (check_tensor T) as [[]| |] eqn:E; cbn [rbind] in H; try discriminate.
    injection H as <-. apply check_tensor_true in E as [E1 [E2 E3]]; auto. split; auto. split; auto. split; auto.
  Qed.
  Lemma valid_make T : valid T -> make T = Ok T.
  Proof.
    intros [[H1 [H2 H3]] [H4 H5]]. unfold make. rewrite (proj2 (check_tensor_true T (eq_sym H3))); auto.
  Qed.

  (** * block() *)
  Lemma block_spec T idx : valid T -> in_range (b_sbd T) idx = true ->
    (allowed T idx -> exists T' p, block T idx = Ok (T', p) /\ same_meta T T' /\ sorted lexb (b_blocks T') /\
       nth_error (b_blocks T') p = Some (idx, match assoc leqb idx (b_blocks T) with Some t => t | None => undefined_tensor R end) /\
       forall k, k <> idx -> assoc leqb k (b_blocks T') = assoc leqb k (b_blocks T)) /\
    (~ allowed T idx -> block T idx = Throw InvalidArgument).
  Proof.
    intros [HM [HB HS]] Hr. unfold block. rewrite rule_test_spec by auto. cbn [rbind]. split; intros HA.
    - apply allowed_spec in HA as [_ HA]. rewrite HA.
      destruct (fm_subscript_spec KO (undefined_tensor R) idx HS) as (l' & i & l1 & v & l2 & E & Hs' & El & Ei & Hlt & Hgt & Ev & Ho).
      rewrite E. exists (with_blocks T l'), i. split; auto. split; [apply same_meta_with|]. split; auto.
      cbn [b_blocks with_blocks]. split.
      + rewrite El, Ei, nth_error_mid, Ev. reflexivity.
      + intros k Hk. rewrite El. rewrite (assoc_mid_insert KO v l2 k Hlt). rewrite Ho.
        assert (leqb idx k = false) as -> by (apply leqb_neq; congruence). reflexivity.
    - destruct (allowedb T idx) eqn:E; auto. exfalso. apply HA. apply allowed_spec. auto.
  Qed.
  Lemma block_view_length A sbd (packed : list A) idx l : block_view sbd packed idx = Ok l -> length idx = length sbd.
  Proof.
    revert packed idx l; induction sbd as [|n sbd IH]; intros packed [|b idx] l H; cbn in H; try discriminate; auto.
    destruct (rnth packed b); cbn in H; try discriminate. destruct (block_view sbd _ idx) eqn:E; cbn in H; try discriminate.
    cbn. f_equal. eauto.
  Qed.
  Lemma block_view_UB A sbd (packed : list A) idx : length idx <> length sbd -> block_view sbd packed idx = UB.
  Proof.
    revert packed idx; induction sbd as [|n sbd IH]; intros packed [|b idx] H; cbn in *; auto; [lia|].
    unfold rnth. destruct (nth_error packed b); cbn; auto. rewrite IH by lia. reflexivity.
  Qed.
  Lemma block_wrong_length T idx : length idx <> length (b_sbd T) -> block T idx = UB.
  Proof. intros H. unfold block, block_conservation_rule_test, block_quantities. rewrite block_view_UB; auto. Qed.
  Lemma block_assign_spec T idx t : valid T -> allowed T idx -> dsh t = pick 0 (legs T) idx ->
    exists T', block_assign T idx t = Ok T' /\ same_meta T T' /\ valid T' /\
      forall k, assoc leqb k (b_blocks T') = if leqb idx k then Some t else assoc leqb k (b_blocks T).
  Proof.
    intros [HM [HB HS]] HA Ht. unfold block_assign. pose proof (proj1 HA) as Hr. rewrite rule_test_spec by auto.
    pose proof HA as HA'. apply allowed_spec in HA' as [_ HA']. cbn [rbind]. rewrite HA'.
    destruct (fm_subscript_assign_spec KO (undefined_tensor R) idx t HS) as [S1 S2].
    eexists. split; [reflexivity|]. split; [apply same_meta_with|]. split; [|exact S2].
    split; [exact HM|]. split; [|exact S1]. apply blocks_ok_assoc; [exact S1|]. cbn [b_blocks with_blocks].
    intros b t'. rewrite S2. destruct (leqb idx b) eqn:E.
    - apply leqb_eq in E. subst b. intros [= <-]. split; auto.
    - intros H. apply (@valid_assoc G R T); auto. split; auto.
  Qed.

  (** * Round trip with dense tensors *)
  Lemma from_basic_dense T values signif : meta_ok T -> 0 < prod_list (b_sbd T) -> dsh values = map sum_list (legs T) ->
    exists out, from_basic T values signif = Ok out /\ same_meta T out /\ valid out /\
    forall b o, in_range (b_sbd T) b = true -> in_range (pick 0 (legs T) b) o = true ->
      bentry out b o =
        if allowedb T b && signif (d_slice (origin (legs T) b) (pick 0 (legs T) b) values)
        then dv values (place (legs T) b o) else rz.
  Proof.
    intros HM Hp Hsh. destruct (@from_basic_spec G R T values signif HM Hp) as [out [E [Hm [HV HA]]]].
    { rewrite Hsh, map_length. apply legs_length; auto. }
    exists out. split; auto. split; auto. split; auto. intros b o Hb Ho. unfold bentry. rewrite HA. cbv zeta. rewrite Hb. cbn [andb].
    destruct (_ && _)%bool; auto. cbn [d_slice dv].
    rewrite <- (legs_lens HM) in Hb. destruct (in_range_len_pick _ _ _ Hb Ho). rewrite place_origin; auto.
  Qed.
  Lemma round_trip T D signif : valid T -> 0 < prod_list (b_sbd T) -> dense_form T D -> cutoff0 signif ->
    exists out D', from_basic (sparse_zeros_like T) D signif = Ok out /\ same_meta T out /\ valid out /\ to_dense out = Ok D' /\ deq D' D.
  Proof.
    intros HV Hp [HD1 HD2] Hc.
    destruct (@from_basic_dense (sparse_zeros_like T) D signif) as [out [E [Hm [HV' HE]]]]; auto; [apply HV|].
    destruct (to_dense_spec HV') as [D' [E' HD']]. exists out, D'. split; auto. split; auto. split; auto. split; auto.
    apply dense_form_unique with (T := T); [apply HV| |split; auto].
    destruct HD' as [F1 F2]. destruct Hm as [M1 [M2 [M3 [M4 M5]]]]. cbn in M1, M2, M3, M4, M5.
    assert (HL : legs out = legs T) by (unfold legs; congruence).
    split; [rewrite F1, HL; reflexivity|]. intros b o Hb Ho.
    rewrite <- HL. rewrite F2; rewrite ?HL, <- ?M3; auto. rewrite HE; auto.
    change (legs (sparse_zeros_like T)) with (legs T). change (allowedb (sparse_zeros_like T) b) with (allowedb T b).
    rewrite (HD2 b o Hb Ho).
    destruct (allowedb T b) eqn:E1; cbn [andb].
    - destruct (signif _) eqn:E2; auto. specialize (Hc _ E2 o Ho). cbn [d_slice dv] in Hc.
      rewrite <- (legs_lens (proj1 HV)) in Hb. destruct (in_range_len_pick _ _ _ Hb Ho).
      rewrite <- place_origin in Hc by auto. rewrite (legs_lens (proj1 HV)) in Hb. rewrite <- (HD2 b o); auto.
    - symmetry. apply bentry_disallowed; auto. rewrite allowed_spec. intros [_ H]. congruence.
  Qed.

  (** * Metadata maps *)
  Lemma pick_map A B (f : A -> B) (d : A) L b : in_range (lens L) b = true -> pick (f d) (map (map f) L) b = map f (pick d L b).
  Proof.
    unfold lens. revert b; induction L as [|l L IH]; intros [|x b] H; try discriminate; [reflexivity|].
    cbn [map] in H. apply in_range_cons in H as [H1 H2]. cbn [map pick]. rewrite IH by auto. f_equal. apply map_nth.
  Qed.
  Lemma unpack_map A B (f : A -> B) sbd l : unpack sbd (map f l) = map (map f) (unpack sbd l).
  Proof. revert l; induction sbd; intros; cbn; auto. rewrite firstn_map, skipn_map, IHsbd. reflexivity. Qed.
  Lemma lens_map A B (f : A -> B) L : lens (map (map f) L) = lens L.
  Proof. unfold lens. rewrite map_map. apply map_ext. intros; apply map_length. Qed.

  Lemma inverse_valid T : valid T -> valid (inverse_cvals T).
  Proof.
    intros [HM [HB HS]]. assert (HM' : meta_ok (inverse_cvals T)).
    { destruct HM as [H1 [H2 H3]]. repeat split; cbn; auto. rewrite map_length; auto. }
    split; auto. split; auto. intros idx t Hi. destruct (HB idx t Hi) as [[H1 H2] H3]. split; auto. split; auto.
    unfold qlegs. cbn [b_cv b_sbd b_rule inverse_cvals]. rewrite unpack_map. fold (qlegs T). rewrite <- (qinv_e G).
    rewrite pick_map by (rewrite (qlegs_lens HM); auto). rewrite qprod_inv, H2. reflexivity.
  Qed.
  Lemma inverse_involution T : inverse_cvals (inverse_cvals T) = T.
  Proof.
    destruct T as [r n s z c b]. unfold inverse_cvals. cbn. rewrite qinv_inv, map_map. f_equal.
    rewrite map_ext with (g := fun x => x) by apply qinv_inv. apply map_id.
  Qed.
  Lemma inverse_dense T D : dense_form T D <-> dense_form (inverse_cvals T) D.
  Proof. reflexivity. Qed.

  Lemma sorted_map_val l (f : dense R -> dense R) : sorted lexb l -> sorted lexb (map (fun e => (fst e, f (snd e))) l).
  Proof.
    induction l as [|[k t] l IH]; intros H; [constructor|]. apply sorted_cons in H as [H1 H2]. cbn [map]. apply sorted_cons.
    split; auto. intros e He. apply in_map_iff in He as [e' [<- He]]. cbn [fst]. apply H1; auto.
  Qed.
  Lemma assoc_map_val l (f : dense R -> dense R) k :
    assoc leqb k (map (fun e => (fst e, f (snd e))) l) = option_map f (assoc leqb k l).
  Proof. induction l as [|[k' t] l IH]; cbn; auto. destruct (leqb k' k); auto. Qed.
  Lemma map_blocks_valid f T : (forall d, dsh (f d) = dsh d) -> valid T -> valid (map_blocks f T).
  Proof.
    intros Hf [HM [HB HS]]. split; [exact HM|]. split; [|apply sorted_map_val; auto].
    intros idx t Hi. apply in_map_iff in Hi as [[i t'] [[= <- <-] Hi]]. cbn [snd]. rewrite Hf. apply (HB _ _ Hi).
  Qed.
  Lemma map_blocks_entry (f : R -> R) T b o : f rz = rz -> bentry (map_blocks (d_map f) T) b o = f (bentry T b o).
  Proof. intros Hf. unfold bentry. cbn [map_blocks with_blocks b_blocks]. rewrite assoc_map_val. destruct (assoc _ _ _); cbn; auto. Qed.
  Lemma map_blocks_dense (f : R -> R) T D : f rz = rz -> dense_form T D -> dense_form (map_blocks (d_map f) T) (d_map f D).
  Proof.
    intros Hf [H1 H2]. split; [exact H1|]. intros b o Hb Ho. rewrite map_blocks_entry by auto. cbn [d_map dv].
    f_equal. apply H2; auto.
  Qed.
  Lemma conj_spec T D : valid T -> dense_form T D ->
    valid (conj T) /\ dense_form (conj T) (d_map rconj D) /\ dense_form (conj (conj T)) D /\ same_meta T (conj (conj T)).
  Proof.
    intros HV HD. pose proof (map_blocks_dense rconj (rconj_0 R) HD) as H1.
    split; [apply inverse_valid; apply map_blocks_valid; auto|]. split; [apply inverse_dense in H1; exact H1|]. split.
    - assert (H2 : dense_form (conj (conj T)) (d_map rconj (d_map rconj D))).
      { apply (map_blocks_dense rconj (rconj_0 R)) in H1. exact H1. }
      destruct H2 as [H2 H3]. destruct HD as [H4 H5]. split; auto. intros b o Hb Ho. rewrite <- H3 by auto.
      cbn [d_map dv]. rewrite rconj_conj. reflexivity.
    - destruct T as [r n s z c bl]. unfold conj, conj_only, inverse_cvals, map_blocks, with_blocks. repeat split; cbn.
      + rewrite qinv_inv; auto.
      + rewrite map_map. rewrite map_ext with (g := fun x => x) by apply qinv_inv. symmetry. apply map_id.
  Qed.

  (** * Shifts *)
  Lemma unpack_shift sbd (cv : list G) dim (f : G -> G) : dim < length sbd -> sum_list sbd = length cv ->
    let o := sum_list (firstn dim sbd) in let n := nth dim sbd 0 in
    unpack sbd (firstn o cv ++ map f (firstn n (skipn o cv)) ++ skipn (o + n) cv)
    = upd (unpack sbd cv) dim (map f (nth dim (unpack sbd cv) [])).
  Proof.
    revert cv dim; induction sbd as [|m sbd IH]; intros cv dim Hd Hs; cbn in Hd; [lia|]. rewrite sum_list_cons in Hs.
    destruct dim as [|dim]; cbn [firstn nth unpack].
    - cbn [sum_list fold_right firstn app skipn plus]. unfold upd. cbn [firstn app nth unpack skipn].
      rewrite firstn_app, skipn_app. rewrite !map_length, firstn_length.
      replace (m - Nat.min m (length cv)) with 0 by lia. cbn [firstn skipn]. rewrite app_nil_r.
      rewrite firstn_all2 by (rewrite map_length, firstn_length; lia).
      rewrite (skipn_all2 (map f (firstn m cv))) by (rewrite map_length, firstn_length; lia). reflexivity.
    - rewrite sum_list_cons. set (o := sum_list (firstn dim sbd)). set (n := nth dim sbd 0).
      specialize (IH (skipn m cv) dim ltac:(lia) ltac:(rewrite skipn_length; lia)). cbv zeta in IH. fold o n in IH.
      assert (Hfo : firstn (m + o) cv = firstn m cv ++ firstn o (skipn m cv)).
      { rewrite <- (firstn_skipn m cv) at 1. rewrite firstn_app, firstn_length.
        rewrite firstn_all2 by (rewrite firstn_length; lia). f_equal. f_equal. lia. }
      rewrite Hfo. rewrite <- app_assoc. rewrite firstn_app, skipn_app, firstn_length.
      replace (m - Nat.min m (length cv)) with 0 by lia. cbn [firstn skipn]. rewrite app_nil_r.
      rewrite firstn_all2 by (rewrite firstn_length; lia). rewrite (skipn_all2 (firstn m cv)) by (rewrite firstn_length; lia).
      cbn [app]. rewrite <- skipn_skipn'. replace (m + o + n) with (m + (o + n)) by lia. rewrite <- (skipn_skipn' (o + n) m).
      rewrite IH. unfold upd. cbn [firstn app skipn]. reflexivity.
  Qed.
  Lemma pick_upd_shift L b dim (s : G) : in_range (lens L) b = true -> dim < length L ->
    qprod G (pick (qe G) (upd L dim (map (fun q => qop G q s) (nth dim L []))) b) = qop G (qprod G (pick (qe G) L b)) s.
  Proof.
    unfold lens, upd. revert b dim; induction L as [|l L IH]; intros [|x b] dim Hr Hd; try discriminate; cbn in Hd; [lia|].
    cbn [map] in Hr. apply in_range_cons in Hr as [H1 H2].
    destruct dim as [|dim]; cbn [firstn nth skipn app pick qprod fold_right].
    - rewrite nth_indep with (d' := qop G (qe G) s) by (rewrite map_length; auto).
      rewrite (map_nth (fun q => qop G q s)). rewrite <- !qop_assoc. f_equal. apply qop_comm.
    - specialize (IH b dim H2 ltac:(lia)). unfold qprod in IH. cbn [skipn] in IH. rewrite IH. apply qop_assoc.
  Qed.
  Lemma shift_allowed T shift dim T' : meta_ok T -> shift_impl T shift dim = Ok T' ->
    meta_ok T' /\ b_sbd T' = b_sbd T /\ b_ss T' = b_ss T /\ b_blocks T' = b_blocks T /\ b_rule T' = b_rule T /\
    forall idx, in_range (b_sbd T) idx = true ->
      qprod G (pick (qe G) (qlegs T') idx) = qop G (qprod G (pick (qe G) (qlegs T) idx)) shift.
  Proof.
    intros HM. pose proof HM as [H1 [H2 H3]]. unfold shift_impl. destruct (b_rank T <=? dim) eqn:E; [discriminate|]. apply Nat.leb_gt in E.
    intros [= <-]. split; [|split; [reflexivity|split; [reflexivity|split; [reflexivity|split; [reflexivity|]]]]].
    - repeat split; cbn [b_sbd b_rank b_ss b_cv]; auto. rewrite !app_length, map_length, H3.
      rewrite !firstn_length, !skipn_length. 
      assert (sum_list (firstn dim (b_sbd T)) + nth dim (b_sbd T) 0 <= length (b_cv T)); [|lia].
      rewrite <- H3. rewrite <- (firstn_skipn dim (b_sbd T)) at 3. rewrite sum_list_app.
      destruct (skipn dim (b_sbd T)) as [|x r] eqn:Es.
      + assert (length (skipn dim (b_sbd T)) = 0) by (rewrite Es; auto). rewrite skipn_length in H. lia.
      + rewrite <- (firstn_skipn dim (b_sbd T)) at 2. rewrite app_nth2; rewrite firstn_length; [|lia].
        rewrite Es. replace (dim - Nat.min dim (length (b_sbd T))) with 0 by lia. cbn. lia.
    - intros idx Hi. unfold qlegs. cbn [b_cv b_sbd]. rewrite unpack_shift by (auto; lia). apply pick_upd_shift.
      + change (unpack (b_sbd T) (b_cv T)) with (qlegs T); rewrite (qlegs_lens HM). auto.
      + rewrite unpack_length. lia.
  Qed.
  Lemma cval_shift_valid_iff T shift dim T' : valid T -> b_blocks T <> [] -> cval_shift_ T shift dim = Ok T' ->
    b_blocks T' = b_blocks T /\ (valid T' <-> qop G shift shift = qe G).
  Proof.
    intros [HM [HB HS]] HE. unfold cval_shift_. destruct (shift_impl T shift dim) as [T1| |] eqn:E; cbn [rbind]; try discriminate.
    intros [= <-]. destruct (shift_allowed shift dim HM E) as [M1 [E1 [E2 [E3 [E4 E5]]]]]. split; [exact E3|].
    assert (Hal : forall idx, in_range (b_sbd T) idx = true -> qprod G (pick (qe G) (qlegs T) idx) = b_rule T ->
      (qprod G (pick (qe G) (qlegs T1) idx) = qop G (b_rule T1) (qinv G shift) <-> qop G shift shift = qe G)).
    { intros idx Hi Hq. rewrite E5, Hq, E4 by auto. split; intros H.
      - apply qop_cancel_l in H. rewrite H at 1. apply qop_inv_l.
      - f_equal. apply (qop_cancel_r G shift). rewrite H. symmetry. apply qop_inv_l. }
    split.
    - intros [_ [HB' _]]. destruct (b_blocks T) as [|[idx t] l] eqn:El; [congruence|].
      assert (Hi : In (idx, t) (b_blocks T)) by (rewrite El; left; auto). destruct (HB idx t Hi) as [[H1 H2] _].
      destruct (HB' idx t) as [[H3 H4] _]; [cbn [with_rule b_blocks]; rewrite E3; left; auto|].
      apply (Hal idx H1 H2). exact H4.
    - intros H. split; [exact M1|]. split; [|cbn; rewrite E3; auto].
      intros idx t Hi. cbn [with_rule b_blocks] in Hi. rewrite E3 in Hi. destruct (HB idx t Hi) as [[H1 H2] H3].
      split; [split|].
      + cbn. rewrite E1. auto.
      + apply (Hal idx H1 H2). auto.
      + unfold legs. cbn. rewrite E1, E2. auto.
  Qed.

  (** * allclose *)
  Section Close.
    Variable close : R -> R -> bool.
    Definition kc (x y : option (dense R)) : bool :=
      match x, y with
      | Some a, Some b => tclose close a b
      | Some a, None => tclose0 close a
      | None, Some b => tclose0 close b
      | None, None => true
      end.
    Lemma assoc_gt' k (l : list (list nat * dense R)) : all_gt lexb k l -> assoc leqb k l = None.
    Proof. apply (assoc_gt KO). Qed.
    Lemma forall_tclose0 (l : list (list nat * dense R)) : sorted lexb l ->
      forallb (fun e => tclose0 close (snd e)) l = true <->
      forall k, match assoc leqb k l with Some a => tclose0 close a | None => true end = true.
    Proof.
      intros Hs. rewrite forallb_forall. split.
      - intros H k. destruct (assoc leqb k l) eqn:E; auto. apply (assoc_In KO) in E. apply (H _ E).
      - intros H [k t] Hi. specialize (H k). apply (In_assoc KO) in Hi; auto. rewrite Hi in H. auto.
    Qed.
    Lemma allclose_loop_spec la lb : sorted lexb la -> sorted lexb lb ->
      allclose_loop close la lb = true <-> forall k, kc (assoc leqb k la) (assoc leqb k lb) = true.
    Proof.
      revert lb. induction la as [|[ia ta] la IHa]; intros lb Ha Hb.
      - replace (allclose_loop close [] lb) with (forallb (fun e => tclose0 close (snd e)) lb) by (destruct lb; reflexivity).
        rewrite forall_tclose0 by auto. cbn [assoc kc]. tauto.
      - pose proof Ha as Ha0. apply sorted_cons in Ha as [Ga Ha]. cbn [fst] in Ga.
        induction lb as [|[ib tb] lb IHb].
        + change (allclose_loop close ((ia, ta) :: la) []) with (forallb (fun e => tclose0 close (snd e)) ((ia, ta) :: la)).
          rewrite forall_tclose0 by auto. split; intros H k; specialize (H k); destruct (assoc leqb k _); auto.
        + pose proof Hb as Hb0. apply sorted_cons in Hb as [Gb Hb]. cbn [fst] in Gb.
          assert (Eq : allclose_loop close ((ia, ta) :: la) ((ib, tb) :: lb) =
            if lexb ia ib then tclose0 close ta && allclose_loop close la ((ib, tb) :: lb)
            else if lexb ib ia then tclose0 close tb && allclose_loop close ((ia, ta) :: la) lb
            else tclose close ta tb && allclose_loop close la lb) by reflexivity.
          rewrite Eq. clear Eq.
          destruct (lexb ia ib) eqn:E1; [|destruct (lexb ib ia) eqn:E2].
          * assert (Gb' : all_gt lexb ia ((ib, tb) :: lb)).
            { intros e [<-|He]; auto. cbn. eapply lexb_trans; eauto. }
            rewrite andb_true_iff, IHa by auto. split.
            -- intros [H1 H2] k. cbn [assoc fst snd]. destruct (leqb ia k) eqn:E.
               ++ apply leqb_eq in E. subst k. fold (assoc leqb ia ((ib, tb) :: lb)) .
                  change (kc (Some ta) (assoc leqb ia ((ib, tb) :: lb)) = true). rewrite (assoc_gt' Gb'). exact H1.
               ++ apply H2.
            -- intros H. split.
               ++ specialize (H ia). rewrite (assoc_gt' Gb') in H. cbn [assoc fst snd] in H. rewrite leqb_refl in H. exact H.
               ++ intros k. specialize (H k). cbn [assoc fst snd] in H. destruct (leqb ia k) eqn:E; [|exact H].
                  apply leqb_eq in E. subst k. rewrite (assoc_gt' Ga), (assoc_gt' Gb'). reflexivity.
          * assert (Ga' : all_gt lexb ib ((ia, ta) :: la)).
            { intros e [<-|He]; auto. cbn. eapply lexb_trans; [eassumption|]. apply Ga; auto. }
            rewrite andb_true_iff, IHb by auto. split.
            -- intros [H1 H2] k. cbn [assoc fst snd] in *. destruct (leqb ib k) eqn:E.
               ++ apply leqb_eq in E. subst k. change (kc (assoc leqb ib ((ia, ta) :: la)) (Some tb) = true). rewrite (assoc_gt' Ga'). exact H1.
               ++ apply H2.
            -- intros H. split.
               ++ specialize (H ib). rewrite (assoc_gt' Ga') in H. cbn [assoc fst snd] in H. rewrite leqb_refl in H. exact H.
               ++ intros k. specialize (H k). destruct (leqb ib k) eqn:E.
                  ** apply leqb_eq in E. subst k. rewrite (assoc_gt' Ga'), (assoc_gt' Gb). reflexivity.
                  ** cbn [assoc fst snd] in H |- *. rewrite E in H. exact H.
          * assert (ia = ib) by (apply lexb_total; auto). subst ib. rewrite andb_true_iff, IHa by auto. split.
            -- intros [H1 H2] k. cbn [assoc fst snd]. destruct (leqb ia k); auto. 
            -- intros H. split.
               ++ specialize (H ia). cbn [assoc fst snd] in H. rewrite leqb_refl in H. exact H.
               ++ intros k. specialize (H k). cbn [assoc fst snd] in H. destruct (leqb ia k) eqn:E; auto.
                  apply leqb_eq in E. subst k. rewrite (assoc_gt' Ga), (assoc_gt' Gb). reflexivity.
    Qed.
    Lemma list_eqb_refl A (eqb : A -> A -> bool) l : (forall x, eqb x x = true) -> list_eqb eqb l l = true.
    Proof. intros H. induction l; cbn; auto. rewrite H, IHl. reflexivity. Qed.
    Lemma list_eqb_eq A (eqb : A -> A -> bool) l m : (forall x y, eqb x y = true <-> x = y) -> (list_eqb eqb l m = true <-> l = m).
    Proof.
      intros H. revert m. induction l as [|x l IH]; intros [|y m]; cbn; try (split; [discriminate|discriminate]); [tauto|].
      rewrite andb_true_iff, H, IH. split; [intros [-> ->]; auto|intros [= -> ->]; auto].
    Qed.
    Lemma same_shape_meta (a b : btensor G R) : test_same_shape a b = true <-> b_cv a = b_cv b /\ b_rule a = b_rule b /\ b_ss a = b_ss b.
    Proof.
      unfold test_same_shape. rewrite !andb_true_iff, leqb_eq, qeqb_spec, (list_eqb_eq (qeqb G)) by apply qeqb_spec. tauto.
    Qed.

    Lemma allclose_dense (a b : btensor G R) Da Db : valid a -> valid b -> same_meta a b -> dense_form a Da -> dense_form b Db ->
      close rz rz = true -> (forall x, close rz x = close x rz) ->
      allclose close a b = true <-> forall i, in_range (dsh Da) i = true -> close (dv Da i) (dv Db i) = true.
    Proof.
      intros Va Vb [M1 [M2 [M3 [M4 M5]]]] [A1 A2] [B1 B2] C0 Cs. unfold allclose.
      rewrite (proj2 (same_shape_meta a b)) by auto. rewrite allclose_loop_spec by (apply Va || apply Vb).
      assert (HL : legs b = legs a) by (unfold legs; congruence).
      rewrite HL, <- M3 in B2.
      assert (Hkey : forall k, in_range (b_sbd a) k = true ->
        (kc (assoc leqb k (b_blocks a)) (assoc leqb k (b_blocks b)) = true <->
         forall o, in_range (pick 0 (legs a) k) o = true -> close (bentry a k o) (bentry b k o) = true)).
      { intros k Hk. unfold bentry.
        destruct (assoc leqb k (b_blocks a)) as [ta|] eqn:Ea; destruct (assoc leqb k (b_blocks b)) as [tb|] eqn:Eb; cbn [kc].
        - destruct (valid_assoc _ Va Ea) as [_ Sa]. unfold tclose. rewrite forallb_forall, Sa.
          split; intros H o Ho; apply H; apply idxs_In; auto.
        - destruct (valid_assoc _ Va Ea) as [_ Sa]. unfold tclose0, tclose. rewrite forallb_forall, Sa. cbn [d_zeros d_full dv].
          split; intros H o Ho; apply H; apply idxs_In; auto.
        - destruct (valid_assoc _ Vb Eb) as [_ Sb]. unfold tclose0, tclose. rewrite forallb_forall, Sb, HL. cbn [d_zeros d_full dv].
          split; intros H o Ho; [rewrite Cs|rewrite <- Cs]; apply H; apply idxs_In; auto.
        - split; auto. }
      split.
      - intros H i Hi. rewrite A1 in Hi. destruct (unplace_spec _ _ Hi) as [U1 [U2 U3]]. rewrite (legs_lens (proj1 Va)) in U1.
        rewrite <- U3. rewrite A2, B2 by auto. apply Hkey; auto.
      - intros H k. destruct (in_range (b_sbd a) k) eqn:Ek.
        + apply Hkey; auto. intros o Ho. rewrite <- A2, <- B2 by auto. apply H. rewrite A1.
          rewrite <- (legs_lens (proj1 Va)) in Ek. apply (place_spec _ _ _ Ek Ho).
        + destruct (assoc leqb k (b_blocks a)) as [ta|] eqn:Ea; [destruct (valid_assoc _ Va Ea) as [[Hx _] _]; congruence|].
          destruct (assoc leqb k (b_blocks b)) as [tb|] eqn:Eb; [destruct (valid_assoc _ Vb Eb) as [[Hx _] _]; congruence|]. reflexivity.
    Qed.
  End Close.

  (** * add_tensor_check *)
  Lemma add_check_spec (a b : btensor G R) : add_tensor_check a b = Ok tt <-> b_cv a = b_cv b /\ b_rule a = b_rule b /\ b_ss a = b_ss b.
  Proof.
    unfold add_tensor_check.
    destruct (list_eqb (qeqb G) (b_cv a) (b_cv b)) eqn:E1; cbn [negb].
    - apply list_eqb_eq in E1; [|apply qeqb_spec]. destruct (qeqb G (b_rule a) (b_rule b)) eqn:E2; cbn [negb].
      + apply qeqb_spec in E2. destruct (leqb (b_ss a) (b_ss b)) eqn:E3; cbn [negb].
        * apply leqb_eq in E3. tauto.
        * apply leqb_neq in E3. split; [discriminate|tauto].
      + split; [discriminate|]. intros [_ [H _]]. apply qeqb_spec in H. congruence.
    - split; [discriminate|]. intros [H _]. apply (list_eqb_eq (qeqb G)) in H; [congruence|apply qeqb_spec].
  Qed.
  Lemma add_check_same (a b : btensor G R) : meta_ok a -> meta_ok b -> b_sbd a = b_sbd b ->
    (add_tensor_check a b = Ok tt <-> same_meta a b).
  Proof.
    intros [A1 _] [B1 _] E. rewrite add_check_spec. unfold same_meta. split; [|tauto].
    intros [H1 [H2 H3]]. repeat split; auto. congruence.
  Qed.

  (** * Allocation counts *)
  Lemma count_loop T l : meta_ok T -> forall n idx, in_range (b_sbd T) idx = true ->
    rfold (fun '(n, idx) (_ : nat) => do ok <- block_conservation_rule_test T idx ; Ok (n + b2n ok, inc_left (b_sbd T) idx)) l (n, idx)
    = Ok (n + length (filter (allowedb T) (visit (inc_left (b_sbd T)) (length l) idx)), Nat.iter (length l) (inc_left (b_sbd T)) idx).
  Proof.
    intros HM. induction l as [|x l IH]; intros n idx Hi.
    - cbn. f_equal. f_equal. lia.
    - cbn [rfold]. rewrite rule_test_spec by auto. cbn [rbind]. rewrite IH by (apply inc_left_spec; auto).
      cbn [length visit filter]. rewrite iter_succ_r. f_equal. f_equal. destruct (allowedb T idx); cbn [b2n length]; lia.
  Qed.
  Lemma filter_len_perm A (p : A -> bool) l m : Permutation l m -> length (filter p l) = length (filter p m).
  Proof.
    induction 1; cbn; auto; [|destruct (p x), (p y); auto|congruence].
    destruct (p x); cbn; auto.
  Qed.
  Lemma max_size_spec T max : meta_ok T -> 0 < b_rank T -> 0 < prod_list (b_sbd T) -> prod_list (b_sbd T) <= max ->
    compute_max_size T max = Ok (length (filter (allowedb T) (idxs (b_sbd T)))).
  Proof.
    intros HM Hr Hp Hm. unfold compute_max_size. destruct (b_rank T =? 0) eqn:E; [apply Nat.eqb_eq in E; lia|].
    rewrite Nat.min_r by auto. rewrite <- (proj1 HM). rewrite count_loop by (auto; apply zeros_in_range; auto). cbn [rbind fst].
    rewrite seq_length. cbn [plus]. f_equal. apply filter_len_perm. apply left_enum_perm.
  Qed.
  Lemma guess_loop T n : meta_ok T -> forall g idx, in_range (b_sbd T) idx = true -> g < 50 ->
    size_guess_loop T n g idx = Ok (Nat.min 50 (g + length (filter (allowedb T) (visit (inc_left (b_sbd T)) n idx)))).
  Proof.
    intros HM. induction n as [|n IH]; intros g idx Hi Hg.
    - cbn [size_guess_loop visit filter length]. f_equal. lia.
    - cbn [size_guess_loop visit filter]. rewrite rule_test_spec by auto. cbn [rbind].
      destruct (g + b2n (allowedb T idx) =? 50) eqn:E.
      + apply Nat.eqb_eq in E. f_equal. destruct (allowedb T idx); cbn [b2n length] in *; lia.
      + apply Nat.eqb_neq in E. rewrite IH; [|apply inc_left_spec; auto|destruct (allowedb T idx); cbn [b2n] in *; lia].
        f_equal. destruct (allowedb T idx); cbn [b2n length] in *; lia.
  Qed.
  Lemma guess_spec T : meta_ok T -> 0 < prod_list (b_sbd T) ->
    tensor_list_size_guess T = Ok (Nat.min 50 (length (filter (allowedb T) (idxs (b_sbd T))))).
  Proof.
    intros HM Hp. unfold tensor_list_size_guess. rewrite <- (proj1 HM).
    rewrite guess_loop; auto; [|apply zeros_in_range; auto|apply Nat.leb_le; reflexivity]. cbn [plus]. f_equal. f_equal.
    apply filter_len_perm. apply left_enum_perm.
  Qed.

  (** * sum *)
  Lemma sum_blocks T D : valid T -> dense_form T D ->
    fold_left (fun acc e => radd acc (d_sum (snd e))) (b_blocks T) rz = d_sum D.
  Proof.
    intros HV [H1 H2]. pose proof HV as [HM [HB HS]]. unfold d_sum at 2. rewrite H1. fold (tots (legs T)). rewrite sum_places.
    rewrite (legs_lens HM).
    transitivity (sumf R (fun b => match assoc leqb b (b_blocks T) with Some t => d_sum t | None => rz end) (idxs (b_sbd T))).
    - assert (HF : forall l acc, fold_left (fun acc (e : list nat * dense R) => radd acc (d_sum (snd e))) l acc = radd acc (sumf R (fun e => d_sum (snd e)) l)).
      { induction l as [|e l IH]; intros acc; cbn; [symmetry; apply radd_0_r|]. rewrite IH. symmetry. apply radd_assoc. }
      rewrite HF, radd_0_l.
      assert (Hin : forall idx t, In (idx, t) (b_blocks T) -> In idx (idxs (b_sbd T))).
      { intros idx t Hi. apply idxs_In. apply (HB _ _ Hi). }
      clear -HS Hin. generalize (idxs_NoDup (b_sbd T)). revert HS Hin. generalize (idxs (b_sbd T)) as I. generalize (b_blocks T) as l.
      induction l as [|[k t] l IH]; intros I HS Hin HN.
      + cbn. symmetry. apply sumf_zero. auto.
      + apply sorted_cons in HS as [Hg HS]. rewrite sumf_cons. cbn [snd].
        rewrite (IH I); auto; [|intros; eapply Hin; right; eauto].
        assert (Hs : sumf R (fun b => if leqb k b then d_sum t else rz) I = d_sum t).
        { rewrite sumf_single with (x := k); auto; [rewrite leqb_refl; auto|apply (Hin k t); left; auto|].
          intros a _ Ha. replace (leqb k a) with false; auto. symmetry. apply leqb_neq. congruence. }
        rewrite <- Hs at 1. rewrite <- sumf_add. apply sumf_ext. intros b _. cbn [assoc fst snd]. destruct (leqb k b) eqn:E.
        * apply leqb_eq in E. subst b. rewrite (@assoc_gt _ _ _ _ KO k l Hg). apply radd_0_r.
        * apply radd_0_l.
    - apply sumf_ext. intros b Hb. apply idxs_In in Hb. destruct (assoc leqb b (b_blocks T)) as [t|] eqn:E.
      + destruct (valid_assoc _ HV E) as [_ Hs]. unfold d_sum. rewrite Hs. apply sumf_ext. intros o Ho. apply idxs_In in Ho.
        rewrite H2 by auto. unfold bentry. rewrite E. reflexivity.
      + symmetry. apply sumf_zero. intros o Ho. apply idxs_In in Ho. rewrite H2 by auto. unfold bentry. rewrite E. reflexivity.
  Qed.
  Lemma sum_spec T D : valid T -> dense_form T D ->
    item (bt_sum T) = Ok (d_sum D) /\ (valid (bt_sum T) <-> b_rule T = qe G).
  Proof.
    intros HV HD. split.
    - unfold item, bt_sum. cbn [b_blocks]. unfold d_item. cbn. rewrite Nat.eqb_refl. f_equal. apply sum_blocks; auto.
    - split.
      + intros [_ [HB _]]. destruct (HB [] _ (or_introl eq_refl)) as [[_ H] _]. cbn in H. auto.
      + intros H. split; [repeat split|]. split; [|repeat constructor].
        intros idx t [[= <- <-]|[]]. split; [split; auto|reflexivity].
  Qed.

  (** * any *)
  Lemma any_first (truth : R -> bool) T : any truth T = match b_blocks T with [] => None | (_, t) :: _ => Some (d_any truth t) end.
  Proof.
    unfold any. destruct (b_blocks T) as [|[k t] l]; auto. f_equal. cbn [any_loop]. destruct (d_any truth t) eqn:E; auto.
    cbn [andb]. clear. induction l as [|[k t] l IH]; cbn; auto.
  Qed.
End T.
