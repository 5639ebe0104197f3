(** The two kinds of tensors as instances of the chain algorithms. *)
From Verif Require Import Base Quantity QuantityProofs Ring Index SpecIndex IndexProofs Dense BTensor SpecBTensor LegsProofs BTensorProofs BTensorThms
  BTensorArith SpecArith ArithProofs ArithThms Tensordot SpecTensordot TensordotProofs TensordotThms View Chain SpecChain ChainProofs ChainThms.
From Coq Require Import Permutation.
Set Implicit Arguments.

Lemma distinct_spec l : distinct l = true <-> NoDup l.
Proof.
  induction l as [|x l IH]; cbn; [split; [constructor|auto]|]. rewrite andb_true_iff, IH, negb_true_iff. split.
  - intros [H1 H2]. constructor; auto. intros H. assert (existsb (Nat.eqb x) l = true) by (apply existsb_exists; exists x; rewrite Nat.eqb_refl; auto). congruence.
  - inversion 1; subst. split; auto. destruct (existsb (Nat.eqb x) l) eqn:E; auto. apply existsb_exists in E. destruct E as (y & Hy & E). apply Nat.eqb_eq in E. subst. contradiction.
Qed.
Lemma bitset_ok_spec l n : bitset_ok l n = true <-> NoDup l /\ forall k, In k l -> k < n.
Proof.
  unfold bitset_ok. rewrite andb_true_iff, distinct_spec, forallb_forall. split; intros [H1 H2]; split; auto; intros k Hk; specialize (H2 k Hk); [apply Nat.ltb_lt|apply Nat.ltb_lt]; auto.
Qed.

Lemma nth_gather A (d : A) p l k : k < length p -> nth k (gather d p l) d = nth (nth k p 0) l d.
Proof.
  intros H. unfold gather. rewrite (nth_indep _ d (nth 0 l d)) by (rewrite map_length; auto). exact (map_nth (fun j => nth j l d) p 0 k).
Qed.
Lemma gather_length A (d : A) p l : length (gather d p l) = length p. Proof. apply map_length. Qed.

(** Coordinates put together from those of contracted and free dimensions are in range. *)
Lemma coords_range sh d c i : NoDup d -> (forall k, In k d -> k < length sh) ->
  in_range (gather 0 d sh) c = true -> in_range (gather 0 (free (length sh) d) sh) i = true -> in_range sh (coords (length sh) d c i) = true.
Proof.
  intros Hd Hl Hc Hi. apply in_range_nth in Hc. destruct Hc as [Lc Hc]. apply in_range_nth in Hi. destruct Hi as [Li Hi]. rewrite gather_length in *.
  apply in_range_nth. unfold coords. split; [rewrite map_length, seq_length; reflexivity|]. intros k Hk.
  rewrite (nth_indep _ 0 (slot d c (free (length sh) d) i 0)) by (rewrite map_length, seq_length; lia). rewrite map_nth, seq_nth by lia. cbn [Nat.add].
  unfold slot. destruct (existsb (Nat.eqb k) d) eqn:E.
  - apply existsb_exists in E. destruct E as (k' & Hk' & E). apply Nat.eqb_eq in E. subst k'. destruct (index_of_spec _ _ Hk') as [H1 H2].
    specialize (Hc _ H1). rewrite nth_gather, H2 in Hc by auto. exact Hc.
  - assert (Hf : In k (free (length sh) d)).
    { apply free_In. split; [lia|]. intros H. assert (existsb (Nat.eqb k) d = true) by (apply existsb_exists; exists k; rewrite Nat.eqb_refl; auto). congruence. }
    destruct (index_of_spec _ _ Hf) as [H1 H2]. specialize (Hi _ H1). rewrite nth_gather, H2 in Hi by auto. exact Hi.
Qed.
Lemma in_range_app s1 : forall s2 i, in_range (s1 ++ s2) i = true ->
  in_range s1 (firstn (length s1) i) = true /\ in_range s2 (skipn (length s1) i) = true.
Proof.
  induction s1 as [|s s1 IH]; intros s2 i H; cbn [length firstn skipn app] in *; [auto|]. destruct i as [|x i]; [discriminate|].
  cbn [app in_range] in *. apply andb_true_iff in H. destruct H as [H1 H2]. apply IH in H2. destruct H2 as [H2 H3]. cbn. rewrite H1, H2. auto.
Qed.

(** Dense tensors. *)
Section D.
  Variable R : ring.
  Implicit Types A B : dense R.
  Definition dden (t D : dense R) : Prop := deq t D.
  Lemma bsize_same s : map2 bsize s s = s.
  Proof. induction s as [|x s IH]; [reflexivity|]. cbn. rewrite IH. unfold bsize. destruct (x =? 1); reflexivity. Qed.
  Lemma clamp_same s : forall c, in_range s c = true -> map2 clamp s c = c.
  Proof.
    induction s as [|x s IH]; intros [|y c] H; try discriminate; [reflexivity|]. cbn in H |- *. apply andb_true_iff in H. destruct H as [H1 H2].
    rewrite IH by auto. unfold clamp. destruct (x =? 1) eqn:E; [|reflexivity]. apply Nat.eqb_eq in E. apply Nat.ltb_lt in H1. f_equal. lia.
  Qed.
  Lemma map_id' s : map (fun k : nat => k) s = s. Proof. induction s; cbn; congruence. Qed.

  Lemma dden_tdot A B DA DB d1 d2 : dden A DA -> dden B DB -> length d1 = length d2 -> NoDup d1 -> NoDup d2 ->
    (forall k, In k d1 -> k < length (dsh A)) -> (forall k, In k d2 -> k < length (dsh B)) ->
    gather 0 d1 (dsh A) = map (fun k => k) (gather 0 d2 (dsh B)) -> 0 < length (dsh A) -> 0 < length (dsh B) ->
    exists C, t_tdot A B d1 d2 = Ok C /\ dsh C = gather 0 (free (length (dsh A)) d1) (dsh A) ++ gather 0 (free (length (dsh B)) d2) (dsh B) /\
      dden C (d_tdot DA DB d1 d2).
  Proof.
    intros [SA VA] [SB VB] Hl N1 N2 L1 L2 HS _ _. rewrite map_id' in HS. unfold t_tdot. rewrite Hl, Nat.eqb_refl.
    rewrite (proj2 (bitset_ok_spec _ _) (Logic.conj N1 L1)), (proj2 (bitset_ok_spec _ _) (Logic.conj N2 L2)). cbn [negb orb].
    assert (HF : forallb (fun '(x, y) => (x =? y) || (x =? 1) || (y =? 1)) (combine (gather 0 d1 (dsh A)) (gather 0 d2 (dsh B))) = true).
    { rewrite HS. apply forallb_forall. intros [x y] H. apply in_combine_l in H as H'. clear -H.
      induction (gather 0 d2 (dsh B)) as [|z l IH]; [destruct H|]. destruct H as [H|H]; [injection H as <- <-; rewrite Nat.eqb_refl; reflexivity|auto]. }
    rewrite HF. cbn [negb]. eexists. split; [reflexivity|]. split; [reflexivity|]. split; cbn [dsh d_tdot].
    - rewrite SA, SB. reflexivity.
    - intros i Hi. cbn [dv d_tdot]. rewrite HS, bsize_same, <- HS, <- SA, <- SB. apply sumf_ext. intros c Hc. apply idxs_In in Hc.
      rewrite clamp_same by exact Hc.
      apply in_range_app in Hi. rewrite gather_length in Hi. destruct Hi as [Hi1 Hi2].
      rewrite VA by (apply coords_range; auto). rewrite VB by (apply coords_range; auto; rewrite <- HS; auto). reflexivity.
  Qed.
  Lemma dden_conj A DA : dden A DA -> dsh (t_conj A) = map (fun k => k) (dsh A) /\ dden (t_conj A) (d_map rconj DA).
  Proof. intros [S V]. rewrite map_id'. split; [reflexivity|]. split; [exact S|]. intros i Hi. cbn. rewrite V; auto. Qed.
  Lemma gather_range sh p i : is_perm p (length sh) -> in_range (gather 0 p sh) i = true -> in_range sh (gather 0 (inv_perm p) i) = true.
  Proof.
    intros Hp Hi. apply in_range_nth in Hi. destruct Hi as [Li Hi]. rewrite gather_length in *.
    assert (Lp : length p = length sh) by (apply Permutation_length in Hp; rewrite seq_length in Hp; exact Hp).
    apply in_range_nth. unfold inv_perm. split; [rewrite gather_length, map_length, seq_length; exact Lp|]. intros k Hk.
    rewrite nth_gather by (rewrite map_length, seq_length; lia). fold (inv_perm p). rewrite inv_perm_nth by lia.
    assert (Hin : In k p) by (apply (Permutation_in _ (Permutation_sym Hp)), in_seq; lia).
    destruct (index_of_spec _ _ Hin) as [H1 H2]. specialize (Hi _ H1). rewrite nth_gather, H2 in Hi by auto. exact Hi.
  Qed.
  Lemma nodup_perm p n : NoDup p -> length p = n -> (forall k, In k p -> k < n) -> is_perm p n.
  Proof.
    intros H1 H2 H3. unfold is_perm. apply NoDup_Permutation_bis; auto.
    - rewrite seq_length. lia.
    - intros k Hk. apply in_seq. specialize (H3 _ Hk). lia.
  Qed.
  Lemma dden_perm A DA p : dden A DA -> length p = length (dsh A) -> NoDup p -> (forall k, In k p -> k < length (dsh A)) ->
    exists C, t_perm p A = Ok C /\ dsh C = gather 0 p (dsh A) /\ dden C (d_permute p DA).
  Proof.
    intros [S V] Hl N L. unfold t_perm. rewrite Hl, Nat.eqb_refl, (proj2 (bitset_ok_spec _ _) (Logic.conj N L)). cbn [andb].
    eexists. split; [reflexivity|]. split; [reflexivity|]. split; cbn [dsh dv d_permute].
    - rewrite S. reflexivity.
    - intros i Hi. apply V. apply gather_range; auto. apply nodup_perm; auto.
  Qed.
  Lemma dden_shape t D : dden t D -> dsh D = map (fun k : nat => k) (dsh t).
  Proof. intros [S _]. rewrite map_id'. auto. Qed.
End D.

(** Block tensors. *)
Section B.
  Variable G : abgroup.
  Variable R : ring.
  Variable imax : nat.
  Notation bt := (btensor G R).
  Notation tl := (@blegs G R).
  Notation dual := (@bdual G).
  Notation den := (@stored G R imax).
  Notation leg := (list nat * list G)%type.
  Definition bk0 : leg := ([], []).
  Notation bsz := (@bsz G).

  Lemma bdual_dual k : dual (dual k) = k.
  Proof. destruct k as [s q]. unfold bdual. cbn. f_equal. rewrite map_map. rewrite <- (map_id q) at 2. apply map_ext. intros a. apply qinv_inv. Qed.
  Lemma bdual_size k : bsz (dual k) = bsz k. Proof. reflexivity. Qed.
  Lemma blegs_length (t : bt) : meta_ok t -> length (tl t) = b_rank t.
  Proof. intros M. unfold blegs. rewrite combine_length, (legs_length M), (qlegs_length M). lia. Qed.
  Lemma blegs_fst (t : bt) : meta_ok t -> map fst (tl t) = legs t.
  Proof.
    intros M. unfold blegs. assert (H : length (legs t) = length (qlegs t)) by (rewrite (legs_length M), (qlegs_length M); reflexivity).
    revert H. generalize (legs t) (qlegs t). induction l as [|a l IH]; intros [|b m] H; try discriminate; [reflexivity|]. cbn in *. rewrite IH; auto.
  Qed.
  Lemma blegs_nth (t : bt) k : meta_ok t -> nth k (tl t) bk0 = (nth k (legs t) [], nth k (qlegs t) []).
  Proof. intros M. unfold blegs, bk0. apply combine_nth. rewrite (legs_length M), (qlegs_length M). reflexivity. Qed.
  Lemma stored_shape t D : den t D -> dsh D = map bsz (tl t).
  Proof. intros ([M _] & [H _] & _). rewrite H, <- (blegs_fst M), map_map. reflexivity. Qed.
  Lemma gather_blegs (t : bt) p : meta_ok t -> gather bk0 p (tl t) = combine (gather [] p (legs t)) (gather [] p (qlegs t)).
  Proof. intros M. unfold gather. induction p as [|k p IH]; [reflexivity|]. cbn [map combine]. rewrite (blegs_nth k M). f_equal. exact IH. Qed.
  Lemma combine_app A B (l1 l2 : list A) (m1 m2 : list B) : length l1 = length m1 -> combine (l1 ++ l2) (m1 ++ m2) = combine l1 m1 ++ combine l2 m2.
  Proof. revert m1. induction l1 as [|a l1 IH]; intros [|b m1] H; try discriminate; [reflexivity|]. cbn. rewrite IH; auto. Qed.

  Lemma stored_tdot_full A B DA DB d1 d2 : den A DA -> den B DB -> length d1 = length d2 -> NoDup d1 -> NoDup d2 ->
    (forall k, In k d1 -> k < length (tl A)) -> (forall k, In k d2 -> k < length (tl B)) ->
    gather bk0 d1 (tl A) = map dual (gather bk0 d2 (tl B)) -> 0 < length (tl A) -> 0 < length (tl B) ->
    exists C, tensordot imax A B d1 d2 = Ok C /\ tl C = gather bk0 (free (length (tl A)) d1) (tl A) ++ gather bk0 (free (length (tl B)) d2) (tl B) /\
      den C (d_tdot DA DB d1 d2) /\ b_rule C = qop G (b_rule A) (b_rule B) /\ tdot_blocks A B d1 d2 C.
  Proof.
    intros (VA & FA & IA) (VB & FB & IB) Hl N1 N2 L1 L2 HS P1 P2. pose proof VA as [MA _]. pose proof VB as [MB _].
    rewrite (blegs_length MA) in *. rewrite (blegs_length MB) in *.
    assert (HC : compatible A B d1 d2).
    { split; [exact Hl|]. split; [exact N1|]. split; [exact N2|]. split; [exact L1|]. split; [exact L2|]. intros j Hj.
      assert (HJ : nth j (gather bk0 d1 (tl A)) bk0 = nth j (map dual (gather bk0 d2 (tl B))) bk0) by (rewrite HS; reflexivity).
      change bk0 with (dual bk0) in HJ at 4. rewrite map_nth in HJ. rewrite !nth_gather in HJ by lia. rewrite (blegs_nth _ MA), (blegs_nth _ MB) in HJ.
      unfold bdual in HJ. cbn [fst snd] in HJ. injection HJ as H1 H2. split; [exact H1|]. intros s Hs. rewrite H2 in Hs |- *. rewrite map_length in Hs.
      rewrite (nth_indep _ _ (qinv G (qe G))) by (rewrite map_length; auto). rewrite map_nth. apply qop_inv_l. }
    destruct (tensordot_full (imax := imax) VA VB HC P1 P2) as (C & EC & VC & (HRU & HL & HQ) & HBL & HD).
    { intros s Hs. apply in_app_or in Hs. destruct Hs; auto. }
    exists C. split; [exact EC|]. split; [|split; [|split; [exact HRU|exact HBL]]].
    - unfold blegs at 1. rewrite HL, HQ, combine_app by (unfold gather; rewrite !map_length; reflexivity). rewrite <- (gather_blegs _ MA), <- (gather_blegs _ MB). reflexivity.
    - split; [exact VC|]. split; [apply HD; auto|]. intros s Hs. pose proof VC as [MC _]. rewrite <- (legs_lens MC), HL in Hs. unfold lens in Hs. rewrite map_app in Hs.
      apply in_app_or in Hs. destruct Hs as [Hs|Hs]; apply in_map_iff in Hs; destruct Hs as (x & <- & Hx); unfold gather in Hx; apply in_map_iff in Hx; destruct Hx as (k & <- & Hk);
        apply free_In in Hk; destruct Hk as [Hk _].
      + apply IA. rewrite <- (legs_lens MA). unfold lens. apply in_map. apply nth_In. rewrite (legs_length MA). exact Hk.
      + apply IB. rewrite <- (legs_lens MB). unfold lens. apply in_map. apply nth_In. rewrite (legs_length MB). exact Hk.
  Qed.
  Lemma stored_tdot_rule A B DA DB d1 d2 : den A DA -> den B DB -> length d1 = length d2 -> NoDup d1 -> NoDup d2 ->
    (forall k, In k d1 -> k < length (tl A)) -> (forall k, In k d2 -> k < length (tl B)) ->
    gather bk0 d1 (tl A) = map dual (gather bk0 d2 (tl B)) -> 0 < length (tl A) -> 0 < length (tl B) ->
    exists C, tensordot imax A B d1 d2 = Ok C /\ tl C = gather bk0 (free (length (tl A)) d1) (tl A) ++ gather bk0 (free (length (tl B)) d2) (tl B) /\
      den C (d_tdot DA DB d1 d2) /\ b_rule C = qop G (b_rule A) (b_rule B).
  Proof. intros h1 h2 h3 h4 h5 h6 h7 h8 h9 h10. destruct (stored_tdot_full h1 h2 h3 h4 h5 h6 h7 h8 h9 h10) as (C & c1 & c2 & c3 & c4 & _). eauto. Qed.
  Lemma stored_tdot A B DA DB d1 d2 : den A DA -> den B DB -> length d1 = length d2 -> NoDup d1 -> NoDup d2 ->
    (forall k, In k d1 -> k < length (tl A)) -> (forall k, In k d2 -> k < length (tl B)) ->
    gather bk0 d1 (tl A) = map dual (gather bk0 d2 (tl B)) -> 0 < length (tl A) -> 0 < length (tl B) ->
    exists C, tensordot imax A B d1 d2 = Ok C /\ tl C = gather bk0 (free (length (tl A)) d1) (tl A) ++ gather bk0 (free (length (tl B)) d2) (tl B) /\
      den C (d_tdot DA DB d1 d2).
  Proof. intros h1 h2 h3 h4 h5 h6 h7 h8 h9 h10. destruct (stored_tdot_rule h1 h2 h3 h4 h5 h6 h7 h8 h9 h10) as (C & c1 & c2 & c3 & _). eauto. Qed.
  Lemma stored_conj A DA : den A DA -> tl (conj A) = map dual (tl A) /\ den (conj A) (d_map rconj DA).
  Proof.
    intros (VA & FA & IA). pose proof VA as [MA _]. split.
    - unfold blegs. assert (HL : legs (conj A) = legs A) by reflexivity.
      assert (HQ : qlegs (conj A) = map (map (qinv G)) (qlegs A)) by (unfold qlegs; cbn; apply unpack_map). rewrite HL, HQ.
      generalize (legs A) (qlegs A). induction l as [|a l IH]; intros [|q m]; cbn; try reflexivity. rewrite IH. reflexivity.
    - destruct (conj_spec VA FA) as (H1 & H2 & _). split; [exact H1|]. split; [exact H2|exact IA].
  Qed.
  Lemma stored_perm_rule A DA p : den A DA -> length p = length (tl A) -> NoDup p -> (forall k, In k p -> k < length (tl A)) ->
    exists C, b_perm p A = Ok C /\ tl C = gather bk0 p (tl A) /\ den C (d_permute p DA) /\ b_rule C = b_rule A.
  Proof.
    intros (VA & FA & IA) Hl N L. pose proof VA as [MA _]. rewrite (blegs_length MA) in *. unfold b_perm.
    destruct (permute_thm VA (@names_of_nat (b_rank A) p (nodup_perm N Hl L)) FA) as (C & EC & VC & HRU & HL & HQ & HD). exists C. split; [exact EC|]. split; [|split; [|exact HRU]].
    - unfold blegs at 1. rewrite HL, HQ. symmetry. apply (gather_blegs p MA).
    - split; [exact VC|]. split; [exact HD|]. intros s Hs. pose proof VC as [MC _]. rewrite <- (legs_lens MC), HL in Hs. unfold lens in Hs.
      apply in_map_iff in Hs. destruct Hs as (x & <- & Hx). apply in_map_iff in Hx. destruct Hx as (k & <- & Hk).
      apply IA. rewrite <- (legs_lens MA). unfold lens. apply in_map, nth_In. rewrite (legs_length MA). auto.
  Qed.
  Lemma stored_perm A DA p : den A DA -> length p = length (tl A) -> NoDup p -> (forall k, In k p -> k < length (tl A)) ->
    exists C, b_perm p A = Ok C /\ tl C = gather bk0 p (tl A) /\ den C (d_permute p DA).
  Proof. intros h1 h2 h3 h4. destruct (stored_perm_rule h1 h2 h3 h4) as (C & c1 & c2 & c3 & _). eauto. Qed.
End B.
