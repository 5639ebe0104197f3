(** Theorems about reshape: grouping of dimensions and the way back. *)
From Verif Require Import Base Quantity QuantityProofs FlatMap SpecFlatMap FlatMapProofs FlatMapThms Ring Index SpecIndex IndexProofs
  Dense BTensor SpecBTensor LegsProofs BTensorProofs BTensorThms BTensorArith ArithProofs Tensordot SpecTensordot TensordotProofs TensordotThms
  Reshape SpecReshape ReshapeProofs BTensorEx.
From Coq Require Import Permutation.
Set Implicit Arguments.

Section P.
  Context {G : abgroup} {R : ring}.
  Implicit Types T O : btensor G R.
  Notation entry := (list nat * dense R)%type.

  Lemma qprod_concat (L : list (list G)) : qprod G (map (qprod G) L) = qprod G (concat L).
  Proof. induction L as [|l L IH]; [reflexivity|]. cbn [map concat]. rewrite qprod_app, <- IH. reflexivity. Qed.
  Lemma rmapM_map A B C (f : B -> result C) (g : A -> B) l : rmapM f (map g l) = rmapM (fun a => f (g a)) l.
  Proof. induction l as [|a l IH]; auto. cbn. rewrite IH. reflexivity. Qed.

  Lemma reshape_spec T gl : valid T -> grouping gl (b_rank T) -> 0 < b_rank T -> (forall n, In n (b_sbd T) -> 0 < n) ->
    exists S, reshape T (boundaries gl) = Ok S /\ valid S /\ regrouped gl T S /\
      prod_list (b_sbd S) = prod_list (b_sbd T) /\
      forall b, in_range (b_sbd T) b = true -> same_rank (b_sbd T) b (b_sbd S) (grouped gl (b_sbd T) b).
  Proof.
    intros HV [Hpos Hsum] Hrk Hsec. pose proof HV as [HM [HB HS]]. pose proof HM as [M1 [M2 M3]].
    pose proof (legs_length HM) as LL. pose proof (qlegs_length HM) as LQ. pose proof (legs_lens HM) as NL. pose proof (qlegs_lens HM) as NQ.
    assert (Hgl : gl <> []) by (intros ->; cbn in Hsum; lia).
    set (h := grouped gl (b_sbd T)).
    set (gf := fun (k : list nat) (t : dense R) => d_reshape (map prod_list (unpack gl (pick 0 (legs T) k))) t).
    assert (Hs1 : sum_list gl = length (b_sbd T)) by congruence.
    destruct (rekey (T := T) h gf HV) as (S1 & S2 & S3 & S4). { intros a b. apply grouped_inj; auto. }
    set (bl := fm_sort lexb (map (fun e => (h (fst e), gf (fst e) (snd e))) (b_blocks T))) in *.
    set (mL := map merged_leg (unpack gl (legs T))). set (mQ := map (@merged_qleg G) (unpack gl (qlegs T))).
    assert (ULn : map (@lens nat) (unpack gl (legs T)) = unpack gl (b_sbd T)).
    { unfold lens. rewrite <- unpack_map. f_equal. exact NL. }
    assert (UQn : map (@lens G) (unpack gl (qlegs T)) = unpack gl (b_sbd T)).
    { unfold lens. rewrite <- unpack_map. f_equal. exact NQ. }
    assert (LmL : lens mL = map prod_list (unpack gl (b_sbd T))).
    { unfold mL, lens. rewrite map_map. rewrite <- ULn, map_map. apply map_ext. intros L. unfold merged_leg. rewrite map_length, idxs_length. reflexivity. }
    assert (LmQ : lens mQ = map prod_list (unpack gl (b_sbd T))).
    { unfold mQ, lens. rewrite map_map. rewrite <- UQn, map_map. apply map_ext. intros L. unfold merged_qleg. rewrite map_length, idxs_length. reflexivity. }
    set (S := @mkB G R (b_rule T) (length gl) (map prod_list (unpack gl (b_sbd T))) (concat mL) (concat mQ) bl).
    destruct (@from_legs G R (b_rule T) (length gl) mL mQ) as (F1 & F2 & F3 & _).
    { unfold mL. rewrite map_length, unpack_length. reflexivity. } { congruence. }
    rewrite LmL in F1, F2, F3. 
    assert (MS : meta_ok S) by exact F1. assert (LS : legs S = mL) by exact F2. assert (QS : qlegs S = mQ) by exact F3. clear F1 F2 F3.
    assert (Hr : forall b, in_range (b_sbd T) b = true -> same_rank (b_sbd T) b (b_sbd S) (h b)).
    { intros b Hb. destruct (grouped_facts gl _ _ Hs1 Hb) as [R1 R2]. split; auto. }
    assert (PL : forall b, in_range (b_sbd T) b = true -> pick 0 mL (h b) = map prod_list (unpack gl (pick 0 (legs T) b))).
    { intros b Hb. unfold mL, h. rewrite <- NL. apply (pick_merged 0 0 prod_list); rewrite ?NL; congruence. }
    assert (PQ : forall b, in_range (b_sbd T) b = true -> pick (qe G) mQ (h b) = map (qprod G) (unpack gl (pick (qe G) (qlegs T) b))).
    { intros b Hb. unfold mQ, h. rewrite <- NQ. apply (pick_merged (qe G) (qe G) (qprod G)); rewrite ?NQ; congruence. }
    assert (VS : valid S).
    { split; auto. split; auto. apply blocks_ok_assoc; auto. intros k t E. destruct (S4 k t E) as (k' & t' & E' & -> & ->).
      destruct (valid_assoc _ HV E') as [[A1 A2] A3]. rewrite LS, PL by auto. split; [|reflexivity].
      split; [apply Hr; auto|]. rewrite QS, PQ by auto. rewrite qprod_concat.
      pose proof (in_range_length _ _ A1). rewrite concat_unpack by (rewrite pick_length; lia). exact A2. }
    exists S. split; [|split; [auto|split; [|split; [|auto]]]].
    - unfold reshape. assert (Esbd : forall A (x y : A), match b_sbd T with [] => x | _ => y end = y).
      { intros A x y. destruct (b_sbd T); auto. cbn in M1. lia. }
      rewrite Esbd. rewrite <- M1. unfold reshape_sections_by_dim. rewrite groups_pairs by auto.
      rewrite rmapM_pure with (g := fun '(a, b) => prod_list (seg a b (b_sbd T))).
      2: { intros [a b] Hab. apply rng_In in Hab as (_ & H1 & H2). cbn in H2.
           rewrite (proj2 (Nat.leb_le _ _) H1), (proj2 (Nat.leb_le b _)) by lia. reflexivity. }
      cbn [rbind]. replace (map (fun '(a, b) => prod_list (seg a b (b_sbd T))) (rng 0 gl)) with (map prod_list (unpack gl (b_sbd T))).
      2: { change (b_sbd T) with (skipn 0 (b_sbd T)) at 1. rewrite <- seg_rng, map_map. apply map_ext. intros [? ?]; reflexivity. }
      rewrite (block_prop_spec 0 Nat.mul (gl := gl)) by auto. cbn [rbind].
      rewrite (block_prop_spec (qe G) (qop G) (gl := gl)) by auto. cbn [rbind].
      rewrite rmapM_pure with (g := fun e => (h (fst e), gf (fst e) (snd e))).
      + cbn [rbind]. 
        replace (concat (map _ (unpack gl (unpack (b_sbd T) (b_ss T))))) with (concat mL).
        2: { unfold mL. f_equal. apply map_ext. intros L. unfold merged_leg. apply map_ext. intros b. rewrite fold_mul. lia. }
        replace (concat (map _ (unpack gl (unpack (b_sbd T) (b_cv T))))) with (concat mQ).
        2: { unfold mQ. f_equal. apply map_ext. intros L. unfold merged_qleg. apply map_ext. intros b. rewrite fold_qop_e. reflexivity. }
        fold bl. replace (Datatypes.S (length (boundaries gl))) with (length gl).
        2: { unfold boundaries. destruct gl; [congruence|]. cbn [starts tl length]. rewrite starts_length. reflexivity. }
        apply valid_make; auto.
      + intros [k t] Hi. destruct (HB _ _ Hi) as [[A1 A2] A3]. rewrite block_sizes_spec by auto. cbn [rbind].
        pose proof (in_range_length _ _ A1) as Lk.
        assert (Lp : length (pick 0 (legs T) k) = length (b_sbd T)) by (rewrite pick_length; congruence).
        replace (Datatypes.S (length (boundaries gl))) with (length gl).
        2: { unfold boundaries. destruct gl; [congruence|]. cbn [starts tl length]. rewrite starts_length. reflexivity. }
        rewrite <- Lp at 1. rewrite new_block_shape_spec by (auto; lia). cbn [rbind]. unfold t_reshape. rewrite A3.
        rewrite prod_concat, concat_unpack by lia. rewrite Nat.eqb_refl. cbn [rbind fst snd]. f_equal. f_equal.
        unfold h, grouped, reshape_block_index. rewrite groups_pairs by auto.
        assert (EM : forall a l, map (fun '(x, y) => cpp_flatten (seg x y k) (seg x y (b_sbd T))) (rng a l)
           = map2 cpp_flatten (map (fun '(x, y) => seg x y k) (rng a l)) (map (fun '(x, y) => seg x y (b_sbd T)) (rng a l))).
        { intros a l; revert a; induction l as [|n l IHl]; intros a; [reflexivity|]. cbn [rng map map2]. rewrite IHl. reflexivity. }
        rewrite EM, !seg_rng. cbn [skipn].
        assert (EF : forall Ls Is, map (@length nat) Ls = map (@length nat) Is -> map2 cpp_flatten Is Ls = map2 rowmajor Ls Is).
        { induction Ls as [|l Ls IHL]; intros [|i Is] E; try discriminate; [reflexivity|]. injection E as E1 E2. cbn [map2]. rewrite IHL by auto.
          rewrite cpp_flatten_rowmajor by auto. reflexivity. }
        apply EF. rewrite !unpack_lengths by lia. reflexivity.
    - repeat split; auto.
      + rewrite !stored_assoc. cbn [S b_blocks]. fold (h b). rewrite S3 by auto. destruct (assoc leqb b (b_blocks T)); cbn; congruence.
      + rewrite !stored_assoc. cbn [S b_blocks]. fold (h b). rewrite S3 by auto. destruct (assoc leqb b (b_blocks T)); cbn; congruence.
      + intros b o Hb Ho. unfold bentry. cbn [S b_blocks]. fold (h b). rewrite S3 by auto.
        destruct (assoc leqb b (b_blocks T)) as [t|] eqn:E; cbn [option_map]; auto. cbn [gf d_reshape dv].
        destruct (valid_assoc _ HV E) as [_ A3]. rewrite A3.
        assert (Ls : sum_list gl = length (pick 0 (legs T) b)) by (rewrite pick_length; [congruence|rewrite (in_range_length _ _ Hb); congruence]).
        destruct (grouped_facts gl _ _ Ls Ho) as [-> _]. rewrite decode_rowmajor; auto.
    - cbn [S b_sbd]. rewrite prod_concat, concat_unpack by auto. reflexivity.
  Qed.

  (** Same blocks, up to the meaning of dense tensors. *)
  Definition same_blocks (A B : btensor G R) : Prop :=
    forall k, match assoc leqb k (b_blocks A), assoc leqb k (b_blocks B) with
              | None, None => True | Some t, Some t' => deq t t' | _, _ => False end.
  Lemma same_rank_refl sh a : in_range sh a = true -> same_rank sh a sh a. Proof. repeat split; auto. Qed.
  Lemma entries_same_blocks (A B : btensor G R) : valid A -> valid B -> legs A = legs B -> b_sbd A = b_sbd B -> same_entries A B -> same_blocks A B.
  Proof.
    intros VA VB HL HS HE k. destruct (assoc leqb k (b_blocks A)) as [t|] eqn:EA.
    - destruct (valid_assoc _ VA EA) as [[A1 A2] A3]. destruct (HE k k) as [H1 H2]. { rewrite <- HS. apply same_rank_refl; auto. }
      assert (HSt : stored B k) by (apply H1, stored_assoc; congruence). apply stored_assoc in HSt.
      destruct (assoc leqb k (b_blocks B)) as [t'|] eqn:EB; [|congruence]. destruct (valid_assoc _ VB EB) as [_ B3].
      split; [congruence|]. intros i Hi. specialize (H2 i i). unfold bentry in H2. rewrite EA, EB in H2. symmetry. apply H2.
      rewrite <- HL, <- A3. apply same_rank_refl; auto.
    - destruct (assoc leqb k (b_blocks B)) as [t'|] eqn:EB; auto. destruct (valid_assoc _ VB EB) as [[B1 _] _].
      destruct (HE k k) as [H1 _]. { rewrite HS. apply same_rank_refl; auto. }
      assert (HSt : stored A k) by (apply H1, stored_assoc; congruence). apply stored_assoc in HSt. congruence.
  Qed.

  (** Entries in the same order: symmetric and transitive. *)
  Lemma same_rank_sym s1 a s2 b : same_rank s1 a s2 b -> same_rank s2 b s1 a. Proof. intros (H1 & H2 & H3). repeat split; auto. Qed.
  Lemma same_entries_trans (A B C : btensor G R) : prod_list (b_sbd A) = prod_list (b_sbd B) -> same_volumes A B ->
    same_entries A B -> same_entries B C -> same_entries A C.
  Proof.
    intros HP [_ HVol] H1 H2 a c Hac. destruct Hac as (Ha & Hc & Hr).
    assert (Hab : same_rank (b_sbd A) a (b_sbd B) (rk A B a)) by (apply rk_same_rank; auto).
    assert (Hbc : same_rank (b_sbd B) (rk A B a) (b_sbd C) c).
    { destruct Hab as (_ & B1 & B2). split; auto. split; auto. congruence. }
    destruct (H1 _ _ Hab) as [E1 E2]. destruct (H2 _ _ Hbc) as [E3 E4]. split; [tauto|].
    intros o p (Ho & Hp & Hop). specialize (HVol _ _ Hab).
    set (m := unrank (pick 0 (legs B) (rk A B a)) (rowmajor (pick 0 (legs A) a) o)).
    pose proof (rowmajor_lt _ _ Ho) as Hlt.
    assert (Hm : in_range (pick 0 (legs B) (rk A B a)) m = true) by (apply unrank_in_range; lia).
    assert (Hm2 : rowmajor (pick 0 (legs B) (rk A B a)) m = rowmajor (pick 0 (legs A) a) o) by (apply rowmajor_unrank; lia).
    rewrite (E4 m p) by (repeat split; auto; congruence). apply E2. repeat split; auto.
  Qed.

  (** Grouping keeps the row-major order. *)
  Lemma regrouped_same gl T (S : btensor G R) : valid T -> valid S -> grouping gl (b_rank T) -> regrouped gl T S ->
    prod_list (b_sbd S) = prod_list (b_sbd T) ->
    (forall b, in_range (b_sbd T) b = true -> same_rank (b_sbd T) b (b_sbd S) (grouped gl (b_sbd T) b)) ->
    same_volumes S T /\ same_fluxes S T /\ same_entries T S /\ same_volumes T S.
  Proof.
    intros HV VS [Hg1 Hg2] (G1 & G2 & G3 & G4 & G5 & G6) HP HR. pose proof HV as [HM _]. pose proof HM as [M1 [M2 M3]].
    pose proof (legs_length HM) as LL. pose proof (qlegs_length HM) as LQ. pose proof (legs_lens HM) as NL. pose proof (qlegs_lens HM) as NQ.
    assert (PL : forall b, in_range (b_sbd T) b = true -> pick 0 (legs S) (grouped gl (b_sbd T) b) = map prod_list (unpack gl (pick 0 (legs T) b))).
    { intros b Hb. rewrite G3, <- NL. apply (pick_merged 0 0 prod_list); rewrite ?NL; congruence. }
    assert (PQ : forall b, in_range (b_sbd T) b = true -> pick (qe G) (qlegs S) (grouped gl (b_sbd T) b) = map (qprod G) (unpack gl (pick (qe G) (qlegs T) b))).
    { intros b Hb. rewrite G4, <- NQ. apply (pick_merged (qe G) (qe G) (qprod G)); rewrite ?NQ; congruence. }
    assert (HK : forall b s, same_rank (b_sbd T) b (b_sbd S) s -> s = grouped gl (b_sbd T) b).
    { intros b s (H1 & H2 & H3). destruct (HR b H1) as (_ & R1 & R2). apply (rowmajor_inj (b_sbd S)); auto. congruence. }
    assert (V1 : forall s b, same_rank (b_sbd S) s (b_sbd T) b -> prod_list (pick 0 (legs S) s) = prod_list (pick 0 (legs T) b)).
    { intros s b H. pose proof (in_range_length _ _ (proj1 (proj2 H))) as Lb. rewrite (HK b s) by (apply same_rank_sym; auto).
      rewrite PL by apply H. rewrite prod_concat, concat_unpack; auto. rewrite pick_length; congruence. }
    split; [|split; [|split]].
    - split; auto.
    - intros s b H. pose proof (in_range_length _ _ (proj1 (proj2 H))) as Lb. rewrite (HK b s) by (apply same_rank_sym; auto).
      rewrite PQ by apply H. rewrite qprod_concat, concat_unpack; auto. rewrite pick_length; congruence.
    - intros b s H. rewrite (HK b s H). assert (Hb : in_range (b_sbd T) b = true) by apply H. split; [apply G5; auto|].
      intros o p (Ho & Hp & Hop). rewrite PL in Hp, Hop by auto.
      assert (Lp : sum_list gl = length (pick 0 (legs T) b)). { pose proof (in_range_length _ _ Hb). rewrite pick_length; congruence. }
      destruct (grouped_facts gl _ _ Lp Ho) as [R1 R2].
      assert (p = grouped gl (pick 0 (legs T) b) o) as -> by (apply (rowmajor_inj _ _ _ Hp R2); congruence). apply G6; auto.
    - split; auto. intros a b H. symmetry. apply V1. apply same_rank_sym; auto.
  Qed.

  Theorem reshape_back T gl : valid T -> grouping gl (b_rank T) -> 0 < b_rank T -> (forall n, In n (b_sbd T) -> 0 < n) ->
    exists S, reshape T (boundaries gl) = Ok S /\ valid S /\ regrouped gl T S /\
    forall O, same_meta T O -> exists T2, reshape_as false S O = Ok T2 /\ valid T2 /\ same_meta T T2 /\ same_blocks T T2.
  Proof.
    intros HV Hg Hrk Hsec. destruct (reshape_spec HV Hg Hrk Hsec) as (S & E & VS & RG & HP & HR).
    exists S. split; auto. split; auto. split; auto. intros O HO.
    destruct (regrouped_same HV VS Hg RG HP HR) as (H1 & H2 & H3 & H3'). pose proof (same_meta_legs HO) as (L1 & L2 & L3).
    assert (MO : meta_ok O). { destruct HO as (A1 & A2 & A3 & A4 & A5). destruct HV as [HM _]. unfold meta_ok in *. rewrite <- A2, <- A3, <- A4, <- A5. exact HM. }
    assert (Hpos : forall n, In n (b_sbd S) -> 0 < n).
    { intros n Hn. assert (HS : 0 < prod_list (b_sbd S)) by (rewrite HP; apply prod_pos; auto). revert Hn HS. generalize (b_sbd S). clear.
      induction l as [|x l IH]; intros Hn Hp; [destruct Hn|]. rewrite prod_list_cons in Hp. destruct Hn as [->|Hn]; [nia|]. apply IH; auto. nia. }
    assert (HVO : same_volumes S O). { destruct H1 as [V1 V2]. split; [congruence|]. intros a b Hab. rewrite L3 in Hab. rewrite L1. auto. }
    assert (HFO : same_fluxes S O). { intros a b Hab. rewrite L3 in Hab. rewrite L2. auto. }
    destruct (@reshape_as_ok G R false S O VS MO Hpos HVO HFO) as (R1 & R2 & R3).
    exists (reshaped false S O). split; auto. split; auto.
    assert (SM : same_meta T (reshaped false S O)).
    { destruct HO as (A1 & A2 & A3 & A4 & A5). destruct RG as (G1 & _). repeat split; auto. }
    split; auto. destruct (same_meta_legs SM) as (Q1 & _ & Q3). apply entries_same_blocks; auto.
    apply (same_entries_trans (B := S)); auto.
  Qed.

  Lemma reshape_rank_zero T : valid T -> b_rank T = 0 -> grouping [] (b_rank T) /\ reshape T (boundaries []) = UB.
  Proof.
    intros [[M1 _] _] H. split; [split; [intros n []|rewrite H; reflexivity]|].
    unfold reshape. destruct (b_sbd T) as [|x l]; [reflexivity|cbn in M1; congruence].
  Qed.

  Lemma reshape_as_accepts T O : valid T -> meta_ok O -> (forall n, In n (b_sbd T) -> 0 < n) -> same_volumes T O -> same_fluxes T O ->
    exists S, reshape_as false T O = Ok S /\ valid S /\ b_rule S = b_rule T /\ legs S = legs O /\ qlegs S = qlegs O /\ same_entries T S.
  Proof.
    intros HV MO HP H1 H2. destruct (@reshape_as_ok G R false T O HV MO HP H1 H2) as (A & B & C).
    exists (reshaped false T O). repeat (split; [first [exact A|exact B|reflexivity]|]). exact C.
  Qed.
End P.
