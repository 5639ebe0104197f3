From Verif Require Import Base Truncate SpecTruncate.
Set Implicit Arguments.

Section P.
  Variable W : weights.
  Variable X : Type.
  Variable wt : X -> W.
  Implicit Types d : list (list X).
  Implicit Types thr : W.

  Definition wat (j : nat) (row : list X) : W := match nth_error row j with Some x => wt x | None => wz end.
  Lemma t_index_ok L d j : rect L d -> j < L -> t_index wt L d (Z.of_nat j) = Ok (map (wat j) d).
  Proof.
    intros HR Hj. unfold t_index. assert (((- Z.of_nat L <=? Z.of_nat j) && (Z.of_nat j <? Z.of_nat L))%Z = true) as -> by lia.
    assert ((Z.of_nat j <? 0)%Z = false) as -> by lia. rewrite Nat2Z.id.
    induction d as [|row d IH]; cbn; auto.
    assert (IH' := IH (fun r Hr => HR r (or_intror Hr))). destruct (fold_right _ _ d) as [a| |]; cbn in *; try discriminate.
    destruct (nth_error row j) as [x|] eqn:E; cbn.
    - injection IH' as ->. unfold wat at 2. rewrite E. reflexivity.
    - apply nth_error_None in E. rewrite (HR row) in E by (left; auto). lia.
  Qed.
  Lemma t_index_neg L d j : rect L d -> 1 <= j <= L -> t_index wt L d (- Z.of_nat j) = Ok (map (wat (L - j)) d).
  Proof.
    intros HR Hj.
    assert (Hk : exists m, m = L - j /\ m < L /\ (- Z.of_nat j + Z.of_nat L = Z.of_nat m)%Z) by (exists (L - j); lia).
    destruct Hk as [m [Hm [Hk1 Hk2]]]. rewrite <- Hm. clear Hm. rewrite <- (t_index_ok HR) by lia. unfold t_index.
    assert (((- Z.of_nat L <=? - Z.of_nat j) && (- Z.of_nat j <? Z.of_nat L))%Z = true) as -> by lia.
    assert (((- Z.of_nat L <=? Z.of_nat m) && (Z.of_nat m <? Z.of_nat L))%Z = true) as -> by lia.
    assert ((- Z.of_nat j <? 0)%Z = true) as -> by lia. assert ((Z.of_nat m <? 0)%Z = false) as -> by lia.
    rewrite Hk2. reflexivity.
  Qed.
  Lemma t_index_out L d i : (i < - Z.of_nat L \/ Z.of_nat L <= i)%Z -> t_index wt L d i = Throw TorchError.
  Proof.
    intros H. unfold t_index. assert (((- Z.of_nat L <=? i) && (i <? Z.of_nat L))%Z = false) as ->; auto. lia.
  Qed.
  Lemma total_app l m : total wt (l ++ m) = wadd (total wt l) (total wt m).
  Proof. induction l as [|x l IH]; cbn; [rewrite wadd_0; auto|]. rewrite IH, wadd_assoc. reflexivity. Qed.
  Lemma lost_step j row : j < length row -> lost_after wt j row = wadd (lost_after wt (S j) row) (wat j row).
  Proof.
    intros H. unfold lost_after, wat. revert row H. induction j as [|j IH]; intros [|x row] H; cbn in *; try lia.
    - apply wadd_comm.
    - apply IH. lia.
  Qed.
  Lemma lost_last L row : length row = S L -> lost_after wt L row = wat L row.
  Proof.
    intros H. rewrite lost_step by lia. unfold lost_after. rewrite skipn_all2 by lia. apply wadd_0.
  Qed.
  Lemma before_step j row : j < length row -> lost_before wt (S j) row = wadd (lost_before wt j row) (wat j row).
  Proof.
    intros H. unfold lost_before, wat. revert row H. induction j as [|j IH]; intros [|x row] H; cbn [nth_error length] in *; try lia.
    - cbn. rewrite wadd_0. rewrite wadd_comm, wadd_0. reflexivity.
    - change (firstn (S (S j)) (x :: row)) with (x :: firstn (S j) row). change (firstn (S j) (x :: row)) with (x :: firstn j row).
      change (wadd (wt x) (total wt (firstn (S j) row)) = wadd (wadd (wt x) (total wt (firstn j row))) (match nth_error row j with Some x => wt x | None => wz end)).
      rewrite IH by lia. rewrite wadd_assoc. reflexivity.
  Qed.
  Lemma vadd_map (f g h : list X -> W) d : (forall r, In r d -> wadd (f r) (g r) = h r) -> vadd (map f d) (map g d) = map h d.
  Proof. induction d as [|r d IH]; intros H; cbn; auto. rewrite H by (left; auto). rewrite IH; auto. intros s Hs. apply H. right; auto. Qed.
  Lemma any_gt_spec (lost : list X -> W) d (thr : W) : any_gt (map lost d) thr = true <-> exceeds lost d thr.
  Proof.
    unfold any_gt, exceeds. rewrite existsb_exists. split.
    - intros [w [H1 H2]]. apply in_map_iff in H1 as [r [<- Hr]]. eauto.
    - intros [r [H1 H2]]. exists (lost r). split; auto. apply in_map; auto.
  Qed.
  Lemma u64_nat i : (Z.of_nat i < 2 ^ 64)%Z -> u64 (Z.of_nat i) = Z.of_nat i.
  Proof. intros H. unfold u64. apply Z.mod_small. lia. Qed.

  (** What the loop returns when the minimum is at least one. *)
  Lemma last_loop_spec fuel L d thr mn mx i : rect L d -> i < L -> i < fuel -> (Z.of_nat L <= 2 ^ 63)%Z -> (1 <= mn)%Z ->
    exists k, 1 <= k <= S i /\ last_loop wt fuel L d thr mn mx (Z.of_nat i) (map (lost_after wt i) d) = Some (Ok (Z.of_nat k - 1)%Z) /\
      (Z.of_nat k <= mn \/ exceeds (lost_after wt (k - 1)) d thr /\ Z.of_nat k <= mx)%Z /\
      (k = S i \/ mn <= Z.of_nat k /\ (~ exceeds (lost_after wt k) d thr \/ mx <= Z.of_nat k))%Z.
  Proof.
    intros HR. revert i. induction fuel as [|fuel IH]; intros i Hi Hf HL Hm; [lia|]. cbn [last_loop].
    rewrite u64_nat by lia. destruct (mn <=? Z.of_nat i)%Z eqn:E1.
    2: { exists (S i). split; [lia|]. split; [do 2 f_equal; lia|]. split; [left; lia|left; auto]. }
    destruct (any_gt _ thr && (Z.of_nat i <? mx)%Z) eqn:E2.
    - apply andb_true_iff in E2 as [E2 E3]. apply any_gt_spec in E2. exists (S i). split; [lia|]. split; [do 2 f_equal; lia|].
      split; [right|left; auto]. replace (S i - 1) with i by lia. split; auto. lia.
    - apply Z.leb_le in E1. destruct i as [|i]; [exfalso; clear -E1 Hm; lia|]. replace (Z.of_nat (S i) - 1)%Z with (Z.of_nat i) by lia.
      rewrite (t_index_ok HR) by lia. rewrite vadd_map with (h := lost_after wt i).
      2: { intros r Hr. symmetry. apply lost_step. rewrite (HR r Hr). lia. }
      destruct (IH i) as [k [K1 [K2 [K3 K4]]]]; try lia. exists k. split; [lia|]. split; auto. split; auto.
      destruct K4 as [->|K4]; [|right; auto]. right. split; [lia|].
      apply andb_false_iff in E2 as [E2|E2]; [left|right; apply Z.ltb_ge in E2; exact E2]. intros H. apply any_gt_spec in H. congruence.
  Qed.

  Lemma exceeds_mono d thr k j : k <= j -> exceeds (lost_after wt j) d thr -> exceeds (lost_after wt k) d thr.
  Proof.
    intros H [r [H1 H2]]. exists r. split; auto. revert H2. unfold lost_after.
    replace j with (k + (j - k)) by lia. generalize (j - k). intros n.
    assert (E : forall l : list X, skipn (k + n) l = skipn n (skipn k l)).
    { clear. induction k as [|k IH]; intros [|x l]; cbn; auto. now rewrite skipn_nil. }
    rewrite (E r). rewrite <- (firstn_skipn n (skipn k r)) at 2. rewrite total_app. apply wgtb_mono.
  Qed.

  Theorem last_index_spec L d thr mn mx : rect L d -> 1 <= L -> (Z.of_nat L <= 2 ^ 63)%Z -> (1 <= mn <= mx)%Z ->
    exists k, compute_last_index wt L d thr mn mx = Some (Ok (Z.of_nat k - 1)%Z) /\
      (Z.min mn (Z.of_nat L) <= Z.of_nat k <= mx)%Z /\ k <= L /\
      (k < L -> exceeds (lost_after wt k) d thr -> Z.of_nat k = mx) /\
      (forall j, j < k -> (mn <= Z.of_nat j)%Z -> exceeds (lost_after wt j) d thr).
  Proof.
    intros HR HL HB Hm. unfold compute_last_index. replace (Z.of_nat L - 1)%Z with (Z.of_nat (L - 1)) by lia.
    rewrite (t_index_ok HR) by lia.
    rewrite map_ext_in with (g := lost_after wt (L - 1)).
    2: { intros r Hr. symmetry. apply lost_last. rewrite (HR r Hr). lia. }
    destruct (@last_loop_spec (2 * L + 2) L d thr mn mx (L - 1)) as [k [K1 [K2 [K3 K4]]]]; auto; try lia.
    exists k. split; [exact K2|]. split; [|split; [lia|split]].
    - destruct K3 as [K3|K3], K4 as [K4|K4]; lia.
    - intros Hk Hx. destruct K4 as [K4|[K4 [K5|K5]]]; [lia|contradiction|]. destruct K3 as [K3|K3]; lia.
    - intros j Hj Hmj. destruct K3 as [K3|[K3 _]]; [lia|]. eapply exceeds_mono; [|exact K3]. lia.
  Qed.

  (** With [min_size = 0] the loop runs past the beginning whenever everything may be discarded, and the call throws. *)
  Lemma neg_loop fuel L d thr mx j trunc : rect L d -> 1 <= j <= L -> L + 1 - j < fuel -> (Z.of_nat L <= 2 ^ 63)%Z ->
    (mx <= 2 ^ 63)%Z -> last_loop wt fuel L d thr 0 mx (- Z.of_nat j) trunc = Some (Throw TorchError).
  Proof.
    intros HR. revert j trunc. induction fuel as [|fuel IH]; intros j trunc Hj Hf HL Hx; [lia|]. cbn [last_loop].
    assert (E : u64 (- Z.of_nat j) = (2 ^ 64 - Z.of_nat j)%Z).
    { unfold u64. symmetry. apply Z.mod_unique with (q := (-1)%Z); lia. }
    rewrite E. assert ((0 <=? 2 ^ 64 - Z.of_nat j)%Z = true) as -> by lia.
    assert ((2 ^ 64 - Z.of_nat j <? mx)%Z = false) as -> by lia. rewrite andb_false_r.
    replace (- Z.of_nat j - 1)%Z with (- Z.of_nat (S j))%Z by lia.
    destruct (Nat.eq_dec j L) as [->|Hn].
    - rewrite t_index_out by lia. reflexivity.
    - rewrite (t_index_neg HR) by lia. apply IH; lia.
  Qed.
  Lemma min_zero_loop fuel L d thr mx i : rect L d -> i < L -> i + L + 2 <= fuel -> (Z.of_nat L <= 2 ^ 63)%Z -> (1 <= mx <= 2 ^ 63)%Z ->
    ~ exceeds (lost_after wt 0) d thr ->
    last_loop wt fuel L d thr 0 mx (Z.of_nat i) (map (lost_after wt i) d) = Some (Throw TorchError).
  Proof.
    intros HR. revert i. induction fuel as [|fuel IH]; intros i Hi Hf HL Hx Hn; [lia|]. cbn [last_loop].
    rewrite u64_nat by lia. assert ((0 <=? Z.of_nat i)%Z = true) as -> by lia.
    assert (any_gt (map (lost_after wt i) d) thr = false) as ->.
    { apply not_true_iff_false. rewrite any_gt_spec. intros H. apply Hn. eapply exceeds_mono; [|exact H]. lia. }
    cbn [andb]. destruct i as [|i].
    - change (Z.of_nat 0 - 1)%Z with (- Z.of_nat 1)%Z. rewrite (t_index_neg HR) by lia. apply neg_loop; auto; lia.
    - replace (Z.of_nat (S i) - 1)%Z with (Z.of_nat i) by lia.
      rewrite (t_index_ok HR) by lia. rewrite vadd_map with (h := lost_after wt i).
      2: { intros r Hr. symmetry. apply lost_step. rewrite (HR r Hr). lia. }
      apply IH; auto; lia.
  Qed.
  Theorem last_index_min_zero L d thr mx : rect L d -> 1 <= L -> (Z.of_nat L <= 2 ^ 63)%Z -> (1 <= mx <= 2 ^ 63)%Z ->
    ~ exceeds (lost_after wt 0) d thr -> compute_last_index wt L d thr 0 mx = Some (Throw TorchError).
  Proof.
    intros HR HL HB Hm Hn. unfold compute_last_index. replace (Z.of_nat L - 1)%Z with (Z.of_nat (L - 1)) by lia.
    rewrite (t_index_ok HR) by lia. rewrite map_ext_in with (g := lost_after wt (L - 1)).
    2: { intros r Hr. symmetry. apply lost_last. rewrite (HR r Hr). lia. }
    apply min_zero_loop; auto; lia.
  Qed.

  (** The three-tensor truncation. *)
  Theorem truncate3_spec L u d v thr mn mx : rect L d -> rect L u -> rect L v -> 1 <= L -> (Z.of_nat L <= 2 ^ 63)%Z -> (1 <= mn <= mx)%Z ->
    exists k, truncate3 wt L u d v thr mn mx = Some (Ok (map (firstn k) u, map (firstn k) d, map (firstn k) v)) /\
      (Z.min mn (Z.of_nat L) <= Z.of_nat k <= mx)%Z /\ k <= L /\
      (k < L -> exceeds (lost_after wt k) d thr -> Z.of_nat k = mx) /\
      (forall j, j < k -> (mn <= Z.of_nat j)%Z -> exceeds (lost_after wt j) d thr).
  Proof.
    intros HR Hu Hv HL HB Hm. destruct (last_index_spec thr HR HL HB Hm) as [k [E H]]. exists k. split; auto.
    unfold truncate3. rewrite E. cbn [option_map rmap rbind].
    assert (HS : forall x : list (list X), t_slice (Z.of_nat k - 1 + 1) x = map (firstn k) x).
    { intros x. unfold t_slice. replace (Z.of_nat k - 1 + 1)%Z with (Z.of_nat k) by lia. apply map_ext. intros r.
      assert ((Z.of_nat k <? 0)%Z = false) as -> by lia. rewrite Nat2Z.id. reflexivity. }
    rewrite !HS. reflexivity.
  Qed.

  (** Ascending version: exact result of the loop. *)
  Lemma first_loop_spec fuel L d thr mi ma i : rect L d -> i < L -> L - i < fuel -> (Z.of_nat L <= 2 ^ 63)%Z -> (0 <= mi < Z.of_nat L - 1)%Z ->
    exists k, i <= k < L /\ first_loop wt fuel L d thr mi ma (Z.of_nat i) (map (lost_before wt (S i)) d) = Some (Ok (Z.of_nat k)) /\
      (Z.of_nat k > mi \/ exceeds (lost_before wt (S k)) d thr /\ ma <= Z.of_nat k)%Z /\
      (forall j, i <= j < k -> (Z.of_nat j <= mi)%Z /\ (~ exceeds (lost_before wt (S j)) d thr \/ Z.of_nat j < ma)%Z).
  Proof.
    intros HR. revert i. induction fuel as [|fuel IH]; intros i Hi Hf HL Hm; [lia|]. cbn [first_loop].
    rewrite u64_nat by lia. destruct (Z.of_nat i <=? mi)%Z eqn:E1.
    2: { exists i. split; [lia|]. split; auto. split; [left; lia|]. intros; lia. }
    destruct (any_gt _ thr && (ma <=? Z.of_nat i)%Z) eqn:E2.
    - apply andb_true_iff in E2 as [E2 E3]. apply any_gt_spec in E2. exists i. split; [lia|]. split; auto. split; [right; split; auto; lia|]. intros; lia.
    - replace (Z.of_nat i + 1)%Z with (Z.of_nat (S i)) by lia. rewrite (t_index_ok HR) by lia.
      rewrite vadd_map with (h := lost_before wt (S (S i))).
      2: { intros r Hr. symmetry. apply before_step. rewrite (HR r Hr). lia. }
      destruct (IH (S i)) as [k [K1 [K2 [K3 K4]]]]; try lia. exists k. split; [lia|]. split; auto. split; auto.
      intros j Hj. destruct (Nat.eq_dec j i) as [->|Hn]; [|apply K4; lia]. split; [lia|].
      apply andb_false_iff in E2 as [E2|E2]; [left|right; apply Z.leb_gt in E2; exact E2]. intros H. apply any_gt_spec in H. congruence.
  Qed.
  Theorem first_index_spec L d thr mn mx : rect L d -> (Z.of_nat L <= 2 ^ 63)%Z -> (2 <= mn <= mx)%Z -> (mx <= Z.of_nat L)%Z ->
    exists k, compute_first_index_ascending wt L d thr mn mx = Some (Ok (Z.of_nat k)) /\ k < L /\
      (mn - 1 <= Z.of_nat L - Z.of_nat k <= mx)%Z /\
      ((Z.of_nat L - Z.of_nat k = mn - 1)%Z \/ exceeds (lost_before wt (S k)) d thr) /\
      (0 < k -> exceeds (lost_before wt k) d thr -> (Z.of_nat L - Z.of_nat k = mx)%Z).
  Proof.
    intros HR HL Hm Hx. unfold compute_first_index_ascending.
    change (t_index wt L d 0) with (t_index wt L d (Z.of_nat 0)). rewrite (t_index_ok HR) by lia.
    rewrite map_ext_in with (g := lost_before wt 1).
    2: { intros r Hr. rewrite before_step by (rewrite (HR r Hr); lia). unfold lost_before. cbn [firstn total]. rewrite wadd_0. reflexivity. }
    assert (E1 : u64 (Z.of_nat L - mn) = (Z.of_nat L - mn)%Z) by (apply Z.mod_small; lia).
    assert (E2 : u64 (Z.of_nat L - mx) = (Z.of_nat L - mx)%Z) by (apply Z.mod_small; lia). rewrite E1, E2.
    destruct (@first_loop_spec (L + 2) L d thr (Z.of_nat L - mn) (Z.of_nat L - mx) 0) as [k [K1 [K2 [K3 K4]]]]; auto; try lia.
    exists k. split; [exact K2|]. split; [lia|].
    assert (HP : 0 < k -> (Z.of_nat (k - 1) <= Z.of_nat L - mn)%Z /\ (~ exceeds (lost_before wt (S (k - 1))) d thr \/ (Z.of_nat (k - 1) < Z.of_nat L - mx)%Z)).
    { intros H. apply K4. lia. }
    split; [|split].
    - split; [|destruct K3; lia]. destruct k; [lia|]. destruct HP; lia.
    - destruct K3 as [K3|[K3 _]]; [left|right; auto]. destruct k; [lia|]. destruct HP; lia.
    - intros Hk Hex. destruct (HP Hk) as [_ [HQ|HQ]]; [replace (S (k - 1)) with k in HQ by lia; contradiction|]. 
      destruct K3; lia.
  Qed.
  (** With the default maximum (the largest [size_t]) and a minimum of one, every call throws. *)
  Lemma first_default_loop fuel L d thr i trunc : rect L d -> i < L -> L - i < fuel -> (Z.of_nat L < 2 ^ 62)%Z ->
    first_loop wt fuel L d thr (Z.of_nat L - 1) (Z.of_nat L + 1) (Z.of_nat i) trunc = Some (Throw TorchError).
  Proof.
    intros HR. revert i trunc. induction fuel as [|fuel IH]; intros i trunc Hi Hf HL; [lia|]. cbn [first_loop].
    rewrite u64_nat by lia. assert ((Z.of_nat i <=? Z.of_nat L - 1)%Z = true) as -> by lia.
    assert ((Z.of_nat L + 1 <=? Z.of_nat i)%Z = false) as -> by lia. rewrite andb_false_r.
    replace (Z.of_nat i + 1)%Z with (Z.of_nat (S i)) by lia. destruct (Nat.eq_dec (S i) L) as [E|E].
    - rewrite t_index_out by lia. reflexivity.
    - rewrite (t_index_ok HR) by lia. apply IH; lia.
  Qed.
  Theorem first_index_default L d thr : rect L d -> 1 <= L -> (Z.of_nat L < 2 ^ 62)%Z ->
    compute_first_index_ascending wt L d thr 1 (2 ^ 64 - 1) = Some (Throw TorchError).
  Proof.
    intros HR H1 HL. unfold compute_first_index_ascending.
    change (t_index wt L d 0) with (t_index wt L d (Z.of_nat 0)). rewrite (t_index_ok HR) by lia.
    assert (E1 : u64 (Z.of_nat L - 1) = (Z.of_nat L - 1)%Z) by (apply Z.mod_small; lia).
    assert (E2 : u64 (Z.of_nat L - (2 ^ 64 - 1)) = (Z.of_nat L + 1)%Z).
    { unfold u64. symmetry. apply Z.mod_unique with (q := (-1)%Z); lia. }
    rewrite E1, E2. change 0%Z with (Z.of_nat 0) at 1. apply first_default_loop; auto; lia.
  Qed.

  (** The pair version: the number kept is decided by the eigenvector tensor, the outputs are in the order given. *)
  Theorem truncate_pair_spec L d u thr mn mx : rect L d -> rect L u -> 1 <= L -> (Z.of_nat L <= 2 ^ 63)%Z -> (1 <= mn <= mx)%Z ->
    exists k, truncate_pair wt L d u thr mn mx = Some (Ok (map (firstn k) d, map (firstn k) u)) /\
      compute_last_index wt L u thr mn mx = Some (Ok (Z.of_nat k - 1)%Z).
  Proof.
    intros HR Hu HL HB Hm. destruct (last_index_spec thr Hu HL HB Hm) as [k [E H]]. exists k. split; auto.
    unfold truncate_pair, truncate2. rewrite E. cbn [option_map rmap rbind].
    assert (HS : forall x : list (list X), t_slice (Z.of_nat k - 1 + 1) x = map (firstn k) x).
    { intros x. unfold t_slice. replace (Z.of_nat k - 1 + 1)%Z with (Z.of_nat k) by lia. apply map_ext. intros r.
      assert ((Z.of_nat k <? 0)%Z = false) as -> by lia. rewrite Nat2Z.id. reflexivity. }
    rewrite !HS. reflexivity.
  Qed.
End P.

(** Eigenvalues (5, 0) with the identity as eigenvectors and threshold 0: the zero eigenvalue is not discarded. *)
Lemma truncate_pair_refuted : exists (d u : list (list N)) d' u', rect 2 d /\ rect 2 u /\
  compute_last_index (fun x => x : w_N) 2 d 0%N 1 10 = Some (Ok 0%Z) /\
  truncate_pair (fun x => x : w_N) 2 d u 0%N 1 10 = Some (Ok (d', u')) /\ map (@length N) d' = [2].
Proof.
  exists [[5; 0]%N], [[1; 0]%N; [0; 1]%N]. eexists _, _.
  split; [intros r [<-|[]]; reflexivity|]. split; [intros r [<-|[<-|[]]]; reflexivity|].
  split; [vm_compute; reflexivity|]. split; vm_compute; reflexivity.
Qed.
(** A minimum of 2 keeps 1 value. *)
Lemma first_index_refuted : exists (d : list (list N)), rect 3 d /\
  compute_first_index_ascending (fun x => x : w_N) 3 d 10%N 2 3 = Some (Ok 2%Z).
Proof. exists [[1; 2; 3]%N]. split; [intros r [<-|[]]; reflexivity|vm_compute; reflexivity]. Qed.
