(** Views that keep the rank. *)
From Verif Require Import Base Quantity QuantityProofs FlatMap SpecFlatMap FlatMapProofs Ring Index SpecIndex Dense IndexProofs BTensor SpecBTensor LegsProofs
  BTensorProofs BTensorThms BTensorThms2 BTensorArith Tensordot SpecTensordot Reshape SpecReshape ReshapeProofs ReshapeThms View SpecView ViewProofs ViewThms
  Chain SpecChain SpecEdges EdgesBlock SpecViewKeep.
Set Implicit Arguments.

(** The fixed dimensions of the view have the only element 0. *)
Definition zp (p : pattern) : pattern := map (option_map (fun _ => 0)) p.
Lemma stay_resolves L p : length p = length L -> resolves (stay p L) (zp p) (zp p) (zp p).
Proof.
  revert p; induction L as [|l L IH]; intros [|[a|] p] H; try discriminate; cbn; [exact I| |apply IH; auto]. split; [unfold located; cbn; lia|apply IH; auto].
Qed.
Lemma keep_zp A p (l : list A) : keep (zp p) l = keep p l.
Proof. revert l; induction p as [|[a|] p IH]; intros [|x l]; cbn; auto. f_equal. apply IH. Qed.
Lemma keep_stay p L : length p = length L -> keep p (stay p L) = keep p L.
Proof. revert L; induction p as [|[a|] p IH]; intros [|l L] H; try discriminate; cbn; auto. f_equal. apply IH. auto. Qed.
Lemma set_at_fill p k : set_at p (fill (zp p) k) = fill p k.
Proof. revert k; induction p as [|[a|] p IH]; intros [|x k]; cbn; auto; f_equal; apply IH. Qed.
Lemma stay_length p L : length p = length L -> length (stay p L) = length L.
Proof. revert L; induction p as [|a p IH]; intros [|l L] H; try discriminate; cbn; auto. Qed.
Lemma stay_nth p L i : length p = length L -> i < length L -> nth i (stay p L) [] = match nth i p None with None => nth i L [] | Some _ => [1] end.
Proof. revert L i; induction p as [|a p IH]; intros [|l L] [|i] H Hi; try discriminate; cbn in *; try lia; auto. apply IH; lia. Qed.
Lemma qstay_length {G : abgroup} bp (Q : list (list G)) : length bp = length Q -> length (qstay bp Q) = length Q.
Proof. revert Q; induction bp as [|a p IH]; intros [|l L] H; try discriminate; [reflexivity|]. change (S (length (qstay p L)) = S (length L)). f_equal. apply IH. auto. Qed.
Lemma qstay_nth {G : abgroup} bp (Q : list (list G)) i : length bp = length Q -> i < length Q ->
  nth i (qstay bp Q) [] = match nth i bp None with None => nth i Q [] | Some b => [nth b (nth i Q []) (qe G)] end.
Proof. revert Q i; induction bp as [|a p IH]; intros [|l L] [|i] H Hi; try discriminate; cbn in *; try lia; auto. apply IH; lia. Qed.

(** One at the fixed positions. *)
Fixpoint ones (p : pattern) (sh : list nat) : Prop :=
  match p, sh with
  | [], [] => True
  | None :: p', _ :: sh' => ones p' sh'
  | Some _ :: p', s :: sh' => s = 1 /\ ones p' sh'
  | _, _ => False
  end.
Lemma ones_prod p sh : ones p sh -> prod_list sh = prod_list (keep p sh).
Proof.
  revert sh; induction p as [|[a|] p IH]; intros [|s sh] H; cbn in H; try tauto; auto.
  - destruct H as [-> H]. cbn [keep]. change (prod_list (1 :: ?l)) with (1 * prod_list l). rewrite Nat.mul_1_l. apply IH, H.
  - cbn [keep]. change (prod_list (s :: ?l)) with (s * prod_list l). rewrite <- IH by auto. reflexivity.
Qed.
Lemma ones_rowmajor p sh k : ones p sh -> length k = length (keep p sh) -> rowmajor sh (fill (zp p) k) = rowmajor (keep p sh) k.
Proof.
  revert sh k; induction p as [|[a|] p IH]; intros [|s sh] k H Hk; cbn in H; try tauto; auto; cbn [keep] in Hk.
  - cbn [zp map option_map fill keep rowmajor]. rewrite Nat.mul_0_l, Nat.add_0_l. apply IH; [apply H|exact Hk].
  - destruct k as [|x k]; [discriminate|]. cbn [zp map option_map fill keep rowmajor]. rewrite (ones_prod p sh) by auto. f_equal. apply IH; auto.
Qed.
Lemma ones_lens p L : length p = length L -> ones p (lens (stay p L)).
Proof. revert L; induction p as [|[a|] p IH]; intros [|l L] H; try discriminate; cbn; auto; [split; auto|]; apply IH; auto. Qed.
Lemma ones_pick p L k : length p = length L -> length k = length (keep p L) -> ones p (pick 0 (stay p L) (fill (zp p) k)).
Proof.
  revert L k; induction p as [|[a|] p IH]; intros [|l L] k H Hk; try discriminate; cbn [keep] in Hk; [exact I| |].
  - cbn. split; [reflexivity|]. apply IH; auto.
  - destruct k as [|x k]; [discriminate|]. cbn. apply IH; auto.
Qed.
Lemma ones_range p sh b : ones p sh -> in_range sh b = true -> b = fill (zp p) (keep p b).
Proof.
  revert sh b; induction p as [|[a|] p IH]; intros [|s sh] [|x b] H Hb; cbn in H, Hb; try tauto; try discriminate; auto;
    apply andb_true_iff in Hb as [H1 H2]; apply Nat.ltb_lt in H1; cbn.
  - destruct H as [-> H]. f_equal; [lia|]. apply (IH sh); auto.
  - f_equal. apply (IH sh); auto.
Qed.
Lemma keep_len_range p sh b : ones p sh -> in_range sh b = true -> length (keep p b) = length (keep p sh).
Proof. intros H Hb. apply keep_length. apply in_range_length in Hb. auto. Qed.

Section P.
  Context {G : abgroup} {R : ring}.
  Notation bt := (btensor G R).

  Lemma firstn_snoc A (d : A) l i : i < length l -> firstn (S i) l = firstn i l ++ [nth i l d].
  Proof. revert i; induction l as [|x l IH]; intros [|i] H; cbn in *; try lia; auto. f_equal. apply IH. lia. Qed.
  Lemma skipn_cons' A (d : A) l i : i < length l -> skipn i l = nth i l d :: skipn (S i) l.
  Proof. revert i; induction l as [|x l IH]; intros [|i] H; cbn in *; try lia; auto. apply IH. lia. Qed.
  Lemma one_dims_zpat n : forall r, r < n -> map (fun i => if i =? r then (-1)%Z else 0%Z) (seq 0 n) = zpat (one_pat n r).
  Proof.
    intros r Hr. apply nth_ext' with (d := 0%Z); rewrite map_length, seq_length.
    - rewrite one_zpat, upd_len; rewrite repeat_length; auto.
    - intros i Hi. rewrite (nth_indep (map _ _) 0%Z ((fun i => if i =? r then (-1)%Z else 0%Z) 0)) by (rewrite map_length, seq_length; auto).
      rewrite (map_nth (fun i => if i =? r then (-1)%Z else 0%Z)), seq_nth by auto. cbn [Nat.add]. rewrite one_zpat.
      rewrite upd_nth by (rewrite repeat_length; auto). destruct (i =? r); auto. rewrite nth_repeat_lt by auto. reflexivity.
  Qed.

  Lemma rank_preserving_ok (T : bt) p bp op : meta_ok T -> nonempty T -> resolves (legs T) p bp op ->
    exists X, rank_preserving_shape bp T = Ok X /\ shape_is X (stay p (legs T)) (qstay bp (qlegs T)) (b_rule T).
  Proof.
    intros HM HN HR. pose proof (resolves_length _ _ _ _ HR) as (L1 & L2 & L3). pose proof (legs_length HM) as LL. pose proof (qlegs_length HM) as LQ.
    pose proof (legs_lens HM) as NL. pose proof HM as (M1 & _).
    unfold rank_preserving_shape.
    match goal with |- context [rfold ?f0 _ _] => set (f := f0) end.
    assert (HI : forall n i (out : bt), i + n = b_rank T -> (exists r, shape_is out (firstn i (stay p (legs T))) (firstn i (qstay bp (qlegs T))) r) ->
      exists X r, rfold f (combine (seq i n) (skipn i bp)) out = Ok X /\ shape_is X (stay p (legs T)) (qstay bp (qlegs T)) r).
    { induction n as [|n IH]; intros i out Hi (r & HS).
      - exists out, r. split; [reflexivity|]. rewrite !firstn_all2 in HS; [exact HS|rewrite qstay_length; lia|rewrite stay_length; lia].
      - rewrite (skipn_cons' None bp) by lia. cbn [seq combine rfold].
        assert (HP : exists P, f out (i, nth i bp None) = Ok P /\ exists r, shape_is P (firstn (S i) (stay p (legs T))) (firstn (S i) (qstay bp (qlegs T))) r).
        { rewrite (firstn_snoc []) by (rewrite stay_length; lia). rewrite (firstn_snoc []) by (rewrite qstay_length; lia).
          rewrite stay_nth, qstay_nth by lia. unfold f. cbv beta iota.
          assert (HBP : match nth i bp None with None => nth i p None = None | Some b => b < nth i (b_sbd T) 0 /\ exists a, nth i p None = Some a end).
          { rewrite <- NL. clear - HR. revert p bp op i HR. induction (legs T) as [|l L IH]; intros [|[a|] p] [|[b|] bp] [|[o|] op] [|i] HR; cbn in HR; try tauto; cbn; auto.
            - destruct HR as [(H & _) _]. split; [exact H|eauto].
            - exact (IH p bp op i (proj2 HR)).
            - exact (IH p bp op i HR). }
          destruct (nth i bp None) as [b|].
          - destruct HBP as (Hb & a & Ha). rewrite section_qtt_nth by (auto; lia). cbn [rbind]. rewrite Ha.
            destruct (@shape_list2 G R out (@of_struct G R [[(1, nth b (nth i (qlegs T) []) (qe G))]] (qe G)) (shape_is_meta HS)) as (P & EP & HP); [repeat split|].
            exists P. split; [exact EP|]. destruct HS as (_ & _ & e1 & e2 & _). rewrite e1, e2 in HP. eexists. exact HP.
          - rewrite HBP. rewrite one_dims_zpat by lia. assert (PO : pat_ok (legs T) (one_pat (b_rank T) i)) by (rewrite <- LL; apply one_pat_ok; [exact HN|lia]).
            destruct (@rule_exists G R T _ HM PO) as (r' & Hr'). destruct (view_shape_ok HM HN Hr') as (S' & ES' & HS'). rewrite ES'. cbn [rbind].
            destruct (@shape_list2 G R out S' (shape_is_meta HS) (shape_is_meta HS')) as (P & EP & HP). exists P. split; [exact EP|].
            destruct HS as (_ & _ & e1 & e2 & _), HS' as (_ & _ & d1 & d2 & _). rewrite e1, e2, d1, d2 in HP.
            replace (keep (one_pat (b_rank T) i) (legs T)) with [nth i (legs T) []] in HP by (rewrite <- LL; symmetry; apply keep_one; lia).
            replace (keep (one_pat (b_rank T) i) (qlegs T)) with [nth i (qlegs T) []] in HP by (rewrite <- LQ; symmetry; apply keep_one; lia).
            eexists. exact HP. }
        destruct HP as (P & EP & HP). rewrite EP. cbn [rbind]. apply IH; [lia|exact HP]. }
    destruct (HI (length bp) 0 (@of_struct G R [] (qe G))) as (X & r & EX & HX); [lia| |].
    { exists (qe G). split; [split; [repeat split|split; [intros k t []|constructor]]|]. repeat split. }
    cbn [skipn] in EX. rewrite EX. cbn [rbind]. destruct HX as (V & B & e1 & e2 & e3). unfold set_selection_rule_, is_empty. rewrite B. eexists. split; [reflexivity|].
    eapply rule_shape. split; [exact V|split; [exact B|split; [exact e1|split; [exact e2|reflexivity]]]].
  Qed.

  Lemma view_keep (T : bt) p : valid T -> nonempty T -> pat_ok (legs T) p -> tail_single (legs T) p ->
    exists S, basic_create_view T (zpat p) true = Ok S /\ valid S /\ b_rule S = b_rule T /\ legs S = stay p (legs T) /\
      (forall bp op, resolves (legs T) p bp op -> qlegs S = qstay bp (qlegs T) /\
        forall b, in_range (b_sbd S) b = true -> (SpecReshape.stored S b <-> SpecReshape.stored T (set_at bp b))) /\
      forall D, dense_form T D -> dense_form S (d_view_keep p D).
  Proof.
    intros HV HN HP HT. pose proof HV as (HM & _). pose proof (pat_ok_resolves _ _ HP) as HR.
    set (bp := bpat (legs T) p) in *. set (op := opat (legs T) p) in *.
    pose proof (legs_lens HM) as NL. pose proof (legs_length HM) as LL. pose proof (qlegs_length HM) as LQ. pose proof HM as (M1 & _).
    pose proof (resolves_length _ _ _ _ HR) as (L1 & L2 & L3).
    assert (Hpos : forall n, In n (b_sbd T) -> 0 < n).
    { intros n Hn. rewrite <- NL in Hn. apply in_map_iff in Hn as (l & <- & Hl). specialize (HN l Hl). destruct l; cbn in *; lia. }
    destruct (create_view_spec HV HP Hpos HT) as (V & EV & VV & (V1 & V2 & V3 & V4) & VS & _).
    destruct (VS bp op HR) as [VS1 VS2]. destruct (V4 bp op HR) as [VR VA]. clear VS V4.
    destruct (@rank_preserving_ok T p bp op HM HN HR) as (X & EX & (VX & BX & X1 & X2 & X3)).
    pose proof (legs_lens (proj1 VV)) as NV. pose proof (legs_lens (proj1 VX)) as NX. rewrite V1 in NV. rewrite X1 in NX.
    pose proof (ones_lens p (legs T) L1) as O1.
    assert (KL : keep p (lens (stay p (legs T))) = lens (keep p (legs T))) by (unfold lens; rewrite keep_map, keep_stay by auto; reflexivity).
    assert (HE : prod_list (b_sbd V) = prod_list (b_sbd X)) by (rewrite <- NV, <- NX, (ones_prod _ _ O1), KL; reflexivity).
    assert (HK : forall k, in_range (b_sbd V) k = true -> length k = length (keep p (legs T))).
    { intros k Hk. apply in_range_length in Hk. rewrite <- NV in Hk. unfold lens in Hk. rewrite map_length in Hk. auto. }
    assert (RX : resolves (stay p (legs T)) (zp p) (zp p) (zp p)) by (apply stay_resolves; auto).
    assert (KZ : keep (zp p) (stay p (legs T)) = keep p (legs T)) by (rewrite keep_zp, keep_stay by auto; reflexivity).
    assert (HF : forall k, in_range (b_sbd V) k = true -> same_rank (b_sbd V) k (b_sbd X) (fill (zp p) k)).
    { intros k Hk. specialize (HK k Hk). split; [exact Hk|]. rewrite <- NV in Hk. split.
      - rewrite <- NX. rewrite (fill_range _ _ _ _ k RX) by (rewrite KZ; exact HK). rewrite KZ. exact Hk.
      - rewrite <- NX, <- NV. rewrite (ones_rowmajor p) by (auto; rewrite KL; unfold lens; rewrite map_length; auto). rewrite KL. reflexivity. }
    assert (HU : forall k b, same_rank (b_sbd V) k (b_sbd X) b -> b = fill (zp p) k).
    { intros k b (H1 & H2 & H3). destruct (HF k H1) as (_ & H5 & H6). apply (rowmajor_inj (b_sbd X)); auto. congruence. }
    assert (SV : same_volumes V X).
    { split; [exact HE|]. intros k b Hkb. pose proof (proj1 Hkb) as Hk. rewrite (HU _ _ Hkb). rewrite V1, X1.
      rewrite (ones_prod p (pick 0 (stay p (legs T)) (fill (zp p) k))) by (apply ones_pick; auto).
      rewrite <- (keep_zp p (pick _ _ _)), keep_pick by (rewrite ?KZ; auto; unfold zp; rewrite map_length, stay_length; auto). rewrite KZ. reflexivity. }
    assert (OV : forall n, In n (b_sbd V) -> 0 < n).
    { intros n Hn. rewrite <- NV in Hn. apply in_map_iff in Hn as (l & <- & Hl). apply keep_in in Hl. specialize (HN l Hl). destruct l; cbn in *; lia. }
    assert (HQ : forall k, in_range (b_sbd V) k = true -> pick (qe G) (qlegs X) (fill (zp p) k) = pick (qe G) (qlegs T) (fill bp k)).
    { intros k Hk. rewrite X2. specialize (HK k Hk). clear - HR HK LL LQ. clearbody bp op.
      assert (L : length (legs T) = length (qlegs T)) by congruence. clear LL LQ. revert HR HK L. generalize (qlegs T). revert p bp op k.
      induction (legs T) as [|l L IH]; intros [|[a|] p] [|[b|] bp] [|[o|] op] k [|c Q] HR HK HL; cbn in HR; try tauto; try discriminate; auto; cbn [keep] in HK.
      - cbn. f_equal. apply (IH p bp op k Q (proj2 HR)); auto.
      - destruct k as [|x k]; [discriminate|]. cbn. f_equal. apply (IH p bp op k Q HR); auto. }
    destruct (@reshape_as_ok G R true V X VV (proj1 VX) OV SV) as (ER & VR' & SE).
    { intros k t Hk. destruct (valid_assoc _ VV Hk) as [[A1 A2] _].
      assert (EK : rk V X k = fill (zp p) k) by (apply HU, rk_same_rank; auto). rewrite EK. split; [apply (HF k A1)|]. rewrite HQ by exact A1.
      rewrite X3. apply (VA k A1). split; auto. }
    exists (reshaped true V X). split.
    { unfold basic_create_view in EV |- *. rewrite to_block_basis_spec in * by auto. fold bp op in EV |- *.
      destruct (shape_from T (zpat p)) as [o| |]; try discriminate. cbn [rbind] in EV |- *.
      destruct (rfold _ _ _) as [l| |]; try discriminate. cbn [rbind] in EV |- *. injection EV as <-. rewrite EX. cbn [rbind]. exact ER. }
    split; [exact VR'|]. split; [exact X3|]. split; [exact X1|]. split.
    - intros bp' op' HR'. destruct (resolves_unique _ _ _ _ HR') as [-> ->]. fold bp op. split; [exact X2|].
      intros b Hb. change (b_sbd (reshaped true V X)) with (b_sbd X) in Hb. rewrite <- NX in Hb.
      pose proof (ones_range p _ b O1 Hb) as Eb. pose proof (keep_len_range p _ b O1 Hb) as Lb. rewrite KL in Lb. unfold lens in Lb. rewrite map_length in Lb.
      assert (Hk : in_range (b_sbd V) (keep p b) = true).
      { rewrite <- NV. rewrite Eb in Hb. rewrite (fill_range _ _ _ _ (keep p b) RX) in Hb by (rewrite KZ; exact Lb). rewrite KZ in Hb. exact Hb. }
      destruct (SE _ _ (HF _ Hk)) as [H _]. rewrite <- Eb in H. rewrite H, (VS1 _ Hk).
      replace (set_at bp b) with (fill bp (keep p b)); [reflexivity|]. rewrite Eb at 2.
      assert (Ez : zp p = zp bp).
      { clear - HR. clearbody bp op. revert p bp op HR. induction (legs T) as [|l L IH]; intros [|[a|] p] [|[c|] bp] [|[o|] op] HR; cbn in HR; try tauto; auto; cbn; f_equal; [exact (IH p bp op (proj2 HR))|exact (IH p bp op HR)]. }
      rewrite Ez, set_at_fill. reflexivity.
    - intros D [HD1 HD2]. split.
      + cbn [d_view_keep dsh]. rewrite HD1. change (legs (reshaped true V X)) with (legs X). rewrite X1. clear - L1.
        revert L1. generalize (legs T). induction p as [|[a|] p IH]; intros [|l L] H; try discriminate; auto; cbn; f_equal; apply IH; auto.
      + change (b_sbd (reshaped true V X)) with (b_sbd X). change (legs (reshaped true V X)) with (legs X). rewrite X1, <- NX. intros b o Hb Ho.
        pose proof (ones_range p _ b O1 Hb) as Eb. pose proof (keep_len_range p _ b O1 Hb) as Lb. rewrite KL in Lb. unfold lens in Lb. rewrite map_length in Lb.
        set (k := keep p b) in *.
        assert (Hk : in_range (b_sbd V) k = true).
        { rewrite <- NV. rewrite Eb in Hb. rewrite (fill_range _ _ _ _ k RX) in Hb by (rewrite KZ; exact Lb). rewrite KZ in Hb. exact Hb. }
        rewrite Eb in Ho |- *. pose proof (ones_pick p (legs T) k L1 Lb) as O2. pose proof (ones_range p _ o O2 Ho) as Eo.
        pose proof (keep_len_range p _ o O2 Ho) as Lo. set (u := keep p o) in *.
        assert (KP : keep p (pick 0 (stay p (legs T)) (fill (zp p) k)) = pick 0 (keep p (legs T)) k).
        { rewrite <- (keep_zp p (pick _ _ _)), keep_pick by (rewrite ?KZ; auto; unfold zp; rewrite map_length, stay_length; auto). rewrite KZ. reflexivity. }
        rewrite KP in Lo. rewrite pick_length in Lo by auto. rewrite Eo in Ho |- *.
        assert (Hu : in_range (pick 0 (keep p (legs T)) k) u = true).
        { rewrite (fill_range_off _ _ _ _ k u RX) in Ho by (rewrite KZ; auto; congruence). rewrite KZ in Ho. exact Ho. }
        rewrite (fill_place _ _ _ _ k u RX) by (rewrite KZ; auto; congruence). rewrite KZ. cbn [d_view_keep dv]. rewrite set_at_fill.
        rewrite <- (fill_place _ _ _ _ k u HR) by (auto; congruence). rewrite HD2.
        * destruct (SE _ _ (HF _ Hk)) as [_ H]. symmetry. rewrite (H u (fill (zp p) u)).
          -- apply VS2; auto. rewrite V1. exact Hu.
          -- change (legs (reshaped true V X)) with (legs X). rewrite V1, X1. split; [exact Hu|]. split; [exact Ho|].
             rewrite (ones_rowmajor p) by (auto; rewrite KP, pick_length by auto; congruence). rewrite KP. reflexivity.
        * rewrite <- NL, (fill_range _ _ _ _ k HR) by auto. rewrite NV. exact Hk.
        * rewrite (fill_range_off _ _ _ _ k u HR) by (auto; congruence). exact Hu.
  Qed.
End P.
