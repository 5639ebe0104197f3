From Verif Require Import Base Quantity QuantityProofs FlatMap SpecFlatMap FlatMapProofs Ring Index SpecIndex IndexProofs
  Dense BTensor SpecBTensor LegsProofs.
From Coq Require Import Permutation Sorted.
Set Implicit Arguments.

(** * Loops *)
Lemma rfold_pure S A (f : S -> A -> result S) (g : S -> A -> S) l s :
  (forall s a, In a l -> f s a = Ok (g s a)) -> rfold f l s = Ok (fold_left g l s).
Proof.
  revert s; induction l as [|a l IH]; intros s H; [reflexivity|]. cbn. rewrite H by (left; auto). cbn.
  apply IH. intros; apply H; right; auto.
Qed.
Lemma rfold_app S A (f : S -> A -> result S) l m s : rfold f (l ++ m) s = rbind (rfold f l s) (rfold f m).
Proof. revert s; induction l as [|a l IH]; intros s; cbn; [reflexivity|]. destruct (f s a); cbn; auto. Qed.
Lemma rmapM_pure A B (f : A -> result B) (g : A -> B) l : (forall a, In a l -> f a = Ok (g a)) -> rmapM f l = Ok (map g l).
Proof.
  induction l as [|a l IH]; intros H; [reflexivity|]. cbn. rewrite H by (left; auto). cbn. rewrite IH; [reflexivity|].
  intros; apply H; right; auto.
Qed.
Lemma rnth_Ok A (d : A) l i : i < length l -> rnth l i = Ok (nth i l d).
Proof. intros H. unfold rnth. rewrite (nth_error_nth' l d H). reflexivity. Qed.
Lemma rnth_inv A (d : A) l i x : rnth l i = Ok x -> i < length l /\ nth i l d = x.
Proof.
  unfold rnth. destruct (nth_error l i) eqn:E; [|discriminate]. intros [= ->]. split.
  - apply nth_error_Some. congruence.
  - apply nth_error_nth. auto.
Qed.

Lemma any_truth_false idx : any_truth idx = false <-> idx = zeros (length idx).
Proof.
  unfold any_truth, zeros. induction idx as [|x idx IH]; cbn; [tauto|]. rewrite orb_false_iff, IH, negb_false_iff, Nat.eqb_eq.
  split; [intros [-> H]; f_equal; auto|intros [= -> H]; auto].
Qed.

Lemma odo_loop_visit S (body : S -> list nat -> result S) sh s : 0 < prod_list sh ->
  odo_loop body (inc_left sh) (Datatypes.S (prod_list sh)) s (zeros (length sh))
  = rfold body (visit (inc_left sh) (prod_list sh) (zeros (length sh))) s.
Proof.
  intros Hp. destruct (left_enum _ Hp) as [_ [_ [Hret Hnret]]].
  assert (Hin : forall k, in_range sh (Nat.iter k (inc_left sh) (zeros (length sh))) = true).
  { induction k as [|k IH]; [apply zeros_in_range; auto|]. cbn [Nat.iter nat_rect].
    apply (inc_left_spec _ _ IH). }
  assert (H : forall r k s, r + k = prod_list sh -> 0 < r ->
    odo_loop body (inc_left sh) (Datatypes.S r) s (Nat.iter k (inc_left sh) (zeros (length sh)))
    = rfold body (visit (inc_left sh) r (Nat.iter k (inc_left sh) (zeros (length sh)))) s).
  { induction r as [|r IH]; intros k s0 Hk Hr; [lia|].
    cbn [visit rfold]. cbn [odo_loop]. destruct (body s0 _) as [s'| |]; cbn [rbind]; auto.
    change (inc_left sh (Nat.iter k (inc_left sh) (zeros (length sh))))
      with (Nat.iter (Datatypes.S k) (inc_left sh) (zeros (length sh))).
    destruct (Nat.eq_dec r 0) as [->|Hr0].
    - assert (Datatypes.S k = prod_list sh) by lia. rewrite H, Hret. cbn [visit rfold].
      replace (any_truth (zeros (length sh))) with false; [reflexivity|].
      symmetry. apply any_truth_false. unfold zeros. rewrite repeat_length. reflexivity.
    - destruct (any_truth _) eqn:E.
      + apply IH; lia.
      + exfalso. apply any_truth_false in E. rewrite (in_range_length _ _ (Hin _)) in E.
        apply (Hnret (Datatypes.S k)); auto. lia. }
  apply (H (prod_list sh) 0); lia.
Qed.

(** * Views of packed vectors *)
Lemma block_view_spec A (d : A) sbd packed idx : sum_list sbd = length packed -> in_range sbd idx = true ->
  block_view sbd packed idx = Ok (pick d (unpack sbd packed) idx).
Proof.
  revert packed idx; induction sbd as [|n sbd IH]; intros packed [|b idx] Hs Hr; try discriminate.
  - cbn in *. destruct packed; [reflexivity|discriminate].
  - apply in_range_cons in Hr as [H1 H2]. rewrite sum_list_cons in Hs. cbn [block_view unpack pick].
    rewrite rnth_Ok with (d := d) by lia. cbn [rbind]. rewrite IH; auto; [|rewrite skipn_length; lia]. cbn [rbind].
    f_equal. f_equal. clear -H1. revert n packed H1. induction b; intros [|n] [|x p] H; cbn; auto; try lia. apply IHb; lia.
Qed.

Section P.
  Variable G : abgroup.
  Variable R : ring.
  Implicit Types T : btensor G R.
  Notation KO := key_order_idx.

  Lemma fold_qop l q : fold_left (qop G) l q = qop G q (qprod G l).
  Proof.
    revert q; induction l as [|x l IH]; intros q; cbn.
    - symmetry. apply qop_e_r.
    - rewrite IH. symmetry. rewrite qop_assoc. reflexivity.
  Qed.
  Lemma fold_qop_e l : fold_left (qop G) l (qe G) = qprod G l.
  Proof. rewrite fold_qop. apply qop_e_l. Qed.

  (** * Metadata *)
  Lemma legs_length T : meta_ok T -> length (legs T) = b_rank T.
  Proof. intros [H _]. unfold legs. rewrite unpack_length. auto. Qed.
  Lemma qlegs_length T : meta_ok T -> length (qlegs T) = b_rank T.
  Proof. intros [H _]. unfold qlegs. rewrite unpack_length. auto. Qed.
  Lemma legs_lens T : meta_ok T -> lens (legs T) = b_sbd T.
  Proof. intros [_ [H _]]. apply unpack_lengths. lia. Qed.
  Lemma qlegs_lens T : meta_ok T -> lens (qlegs T) = b_sbd T.
  Proof. intros [_ [_ H]]. apply unpack_lengths. lia. Qed.
  Lemma sizes_tots T : meta_ok T -> sizes T = tots (legs T).
  Proof.
    intros H. pose proof (legs_length H) as Hl. destruct H as [H1 [H2 _]]. unfold sizes, tots.
    apply nth_ext' with (d := 0); rewrite !map_length, seq_length; auto.
    intros k Hk. rewrite nth_indep with (d' := sum_list (prange (b_sbd T) (b_ss T) 0)) by (rewrite map_length, seq_length; auto).
    rewrite (map_nth (fun d => sum_list (prange (b_sbd T) (b_ss T) d))). rewrite seq_nth by auto.
    change 0 with (sum_list []). rewrite map_nth. rewrite prange_unpack by (cbn; lia). reflexivity.
  Qed.

  Definition allowedb T idx : bool := qeqb G (qprod G (pick (qe G) (qlegs T) idx)) (b_rule T).
  Lemma allowed_spec T idx : allowed T idx <-> in_range (b_sbd T) idx = true /\ allowedb T idx = true.
  Proof. unfold allowed, allowedb. rewrite qeqb_spec. tauto. Qed.

  Lemma block_quantities_spec T idx : meta_ok T -> in_range (b_sbd T) idx = true ->
    block_quantities T idx = Ok (pick (qe G) (qlegs T) idx).
  Proof. intros [_ [_ H]] Hr. apply block_view_spec; auto. Qed.
  Lemma block_sizes_spec T idx : meta_ok T -> in_range (b_sbd T) idx = true ->
    block_sizes T idx = Ok (pick 0 (legs T) idx).
  Proof. intros [_ [H _]] Hr. apply block_view_spec; auto. Qed.
  Lemma rule_test_spec T idx : meta_ok T -> in_range (b_sbd T) idx = true ->
    block_conservation_rule_test T idx = Ok (allowedb T idx).
  Proof.
    intros H Hr. unfold block_conservation_rule_test. rewrite block_quantities_spec by auto. cbn [rbind].
    rewrite fold_qop_e. reflexivity.
  Qed.

  Lemma origin_nth L b k : length b = length L -> k < length L ->
    nth k (origin L b) 0 = sum_list (firstn (nth k b 0) (nth k L [])).
  Proof.
    revert b k; induction L as [|l L IH]; intros [|x b] k H Hk; try discriminate; cbn in Hk; [lia|].
    destruct k; cbn; [reflexivity|]. apply IH; cbn in H; lia.
  Qed.
  Lemma full_slice_spec T idx : meta_ok T -> in_range (b_sbd T) idx = true ->
    exists sl, full_slice T idx = Ok sl /\ map fst sl = origin (legs T) idx /\ map snd sl = pick 0 (legs T) idx.
  Proof.
    intros H Hr. pose proof (in_range_length _ _ Hr) as Hl. apply in_range_nth in Hr as [_ Hr].
    pose proof (legs_length H) as HL. destruct H as [H1 [H2 H3]].
    assert (Hpr : forall i, i < b_rank T -> prange (b_sbd T) (b_ss T) i = nth i (legs T) []).
    { intros i Hi. apply prange_unpack. lia. }
    assert (Hpl : forall i, i < b_rank T -> length (prange (b_sbd T) (b_ss T) i) = nth i (b_sbd T) 0).
    { intros i Hi. apply prange_length; lia. }
    exists (map (fun i => (sum_list (firstn (nth i idx 0) (nth i (legs T) [])), nth (nth i idx 0) (nth i (legs T) []) 0))
      (seq 0 (b_rank T))).
    split; [|split].
    - unfold full_slice. apply rmapM_pure. intros i Hi. apply in_seq in Hi.
      rewrite rnth_Ok with (d := 0) by lia. cbn [rbind].
      specialize (Hr i ltac:(lia)). specialize (Hpl i ltac:(lia)). rewrite (proj2 (Nat.leb_gt _ _)) by lia.
      rewrite rnth_Ok with (d := 0) by lia. cbn [rbind]. rewrite Hpr by lia. reflexivity.
    - rewrite map_map. cbn [fst]. apply nth_ext' with (d := 0); rewrite map_length, seq_length.
      + rewrite origin_length by lia. lia.
      + intros k Hk. rewrite origin_nth by lia.
        rewrite nth_indep with (d' := (fun i => sum_list (firstn (nth i idx 0) (nth i (legs T) []))) 0) by (rewrite map_length, seq_length; auto).
        rewrite (map_nth (fun i => sum_list (firstn (nth i idx 0) (nth i (legs T) [])))). rewrite seq_nth by auto. reflexivity.
    - rewrite map_map. cbn [snd]. apply nth_ext' with (d := 0); rewrite map_length, seq_length.
      + rewrite pick_length by lia. lia.
      + intros k Hk. rewrite pick_nth by lia.
        rewrite nth_indep with (d' := (fun i => nth (nth i idx 0) (nth i (legs T) []) 0) 0) by (rewrite map_length, seq_length; auto).
        rewrite (map_nth (fun i => nth (nth i idx 0) (nth i (legs T) []) 0)). rewrite seq_nth by auto. reflexivity.
  Qed.

  (** * Dense forms *)
  Lemma dense_form_unique T D D' : meta_ok T -> dense_form T D -> dense_form T D' -> deq D D'.
  Proof.
    intros HM [H1 H2] [H3 H4]. split; [congruence|]. intros i Hi. rewrite H1 in Hi.
    destruct (unplace_spec _ _ Hi) as [U1 [U2 U3]]. rewrite (legs_lens HM) in U1.
    rewrite <- U3, H2, H4; auto.
  Qed.
  Lemma dense_form_deq T D D' : meta_ok T -> dense_form T D -> deq D D' -> dense_form T D'.
  Proof.
    intros HM [H1 H2] [H3 H4]. split; [congruence|]. intros b o Hb Ho. rewrite <- H4; auto.
    rewrite H1. rewrite <- (legs_lens HM) in Hb. apply (place_spec _ _ _ Hb Ho).
  Qed.

  Definition to_dense_step T (out : dense R) (e : list nat * dense R) : dense R :=
    d_put (origin (legs T) (fst e)) (snd e) out.

  Lemma to_dense_fold T : meta_ok T -> blocks_ok T ->
    to_dense T = Ok (fold_left (to_dense_step T) (b_blocks T) (d_zeros (sizes T))).
  Proof.
    intros HM HB. unfold to_dense. apply rfold_pure. intros s [idx t] Hi. destruct (HB _ _ Hi) as [[Ha _] Hs].
    destruct (full_slice_spec _ HM Ha) as [sl [E1 [E2 E3]]]. rewrite E1. cbn [rbind]. rewrite E3, Hs, leqb_refl, E2.
    reflexivity.
  Qed.
  Lemma to_dense_fold_sh T l D : dsh (fold_left (to_dense_step T) l D) = dsh D.
  Proof. revert D; induction l; intros D; cbn; auto. rewrite IHl. reflexivity. Qed.
  Lemma to_dense_fold_v T l D b o : meta_ok T ->
    (forall idx t, In (idx, t) l -> in_range (b_sbd T) idx = true /\ dsh t = pick 0 (legs T) idx) -> sorted lexb l ->
    in_range (b_sbd T) b = true -> in_range (pick 0 (legs T) b) o = true ->
    dv (fold_left (to_dense_step T) l D) (place (legs T) b o)
    = match assoc leqb b l with Some t => dv t o | None => dv D (place (legs T) b o) end.
  Proof.
    intros HM. revert D. induction l as [|[idx t] l IH]; intros D HB Hs Hb Ho; [reflexivity|].
    apply sorted_cons in Hs as [Hg Hs]. cbn [fold_left assoc fst snd].
    rewrite IH; auto; [|intros; apply HB; right; auto].
    destruct (HB idx t) as [Hi Ht]; [left; auto|].
    destruct (leqb idx b) eqn:E.
    - apply leqb_eq in E. subst idx.
      assert (assoc leqb b l = None) as -> by (apply (assoc_gt KO); exact Hg).
      unfold to_dense_step. cbn [d_put dv fst snd]. rewrite Ht.
      rewrite <- (legs_lens HM) in Hb.
      destruct (in_range_len_pick _ _ _ Hb Ho) as [L1 L2].
      rewrite (proj2 (inside_place _ _ _ _ Hb Hb Ho) eq_refl). rewrite place_sub; auto.
    - destruct (assoc leqb b l); auto. unfold to_dense_step. cbn [d_put dv fst snd]. rewrite Ht.
      destruct (inside _ _ _) eqn:E2; auto. rewrite <- (legs_lens HM) in Hb, Hi.
      apply (inside_place _ _ _ _ Hb Hi Ho) in E2. apply leqb_neq in E. contradiction.
  Qed.
  Lemma to_dense_spec T : valid T -> exists D, to_dense T = Ok D /\ dense_form T D.
  Proof.
    intros [HM [HB HS]]. eexists. split; [apply to_dense_fold; auto|]. split.
    - rewrite to_dense_fold_sh. cbn. apply sizes_tots; auto.
    - intros b o Hb Ho. rewrite to_dense_fold_v; auto.
      intros idx t Hi. destruct (HB _ _ Hi) as [[H1 H2] H3]. auto.
  Qed.
  Lemma to_dense_sound T D : valid T -> to_dense T = Ok D -> dense_form T D.
  Proof. intros H E. destruct (to_dense_spec H) as [D' [E' HD]]. congruence. Qed.

  (** Existence of a dense form, for building specifications. *)
  Definition denseD T : dense R := fold_left (to_dense_step T) (b_blocks T) (d_zeros (sizes T)).
  Lemma denseD_form T : valid T -> dense_form T (denseD T).
  Proof. intros H. destruct (to_dense_spec H) as [D [E HD]]. rewrite to_dense_fold in E by apply H. injection E as <-. auto. Qed.

  (** * Stored blocks as a function of the index *)
  Lemma valid_assoc T b t : valid T -> assoc leqb b (b_blocks T) = Some t -> allowed T b /\ dsh t = pick 0 (legs T) b.
  Proof. intros [_ [HB _]] H. apply (assoc_In KO) in H. apply HB; auto. Qed.
  Lemma blocks_ok_assoc T : sorted lexb (b_blocks T) ->
    (forall b t, assoc leqb b (b_blocks T) = Some t -> allowed T b /\ dsh t = pick 0 (legs T) b) -> blocks_ok T.
  Proof. intros Hs H idx t Hi. apply H. apply (In_assoc KO); auto. Qed.
  Lemma bentry_disallowed T b o : valid T -> ~ allowed T b -> bentry T b o = rz.
  Proof.
    intros HV Hn. unfold bentry. destruct (assoc _ _ _) eqn:E; auto. apply valid_assoc in E as [E _]; auto. contradiction.
  Qed.

  (** * Filling loops *)
  Lemma fill_spec (p : list nat -> bool) (val : list nat -> dense R) v l : sorted lexb l ->
    let l' := fold_left (fun l idx => if p idx then fm_subscript_assign lexb (undefined_tensor R) l idx (val idx) else l) v l in
    sorted lexb l' /\
    forall k, assoc leqb k l' = if existsb (leqb k) v && p k then Some (val k) else assoc leqb k l.
  Proof.
    revert l; induction v as [|x v IH]; intros l Hs; [cbn; auto|]. cbn [fold_left existsb].
    assert (Hs' : sorted lexb (if p x then fm_subscript_assign lexb (undefined_tensor R) l x (val x) else l)).
    { destruct (p x); auto. apply (fm_subscript_assign_spec KO); auto. }
    destruct (IH _ Hs') as [I1 I2]. split; auto. intros k. rewrite I2. clear I1 I2 IH.
    destruct (existsb (leqb k) v && p k)%bool eqn:E1.
    - apply andb_true_iff in E1 as [E1 E1']. rewrite E1, E1', orb_true_r. reflexivity.
    - destruct (leqb k x) eqn:E2; cbn [orb].
      + apply leqb_eq in E2. subst x. destruct (p k) eqn:E3; cbn [andb]; auto.
        rewrite (proj2 (fm_subscript_assign_spec KO (undefined_tensor R) k (val k) Hs)). rewrite leqb_refl. reflexivity.
      + rewrite E1. destruct (p x) eqn:E3; auto.
        rewrite (proj2 (fm_subscript_assign_spec KO (undefined_tensor R) x (val x) Hs)).
        replace (leqb x k) with false; [reflexivity|]. symmetry. apply leqb_neq. apply leqb_neq in E2. congruence.
  Qed.
  Lemma existsb_leqb k v : existsb (leqb k) v = true <-> In k v.
  Proof.
    rewrite existsb_exists. split; [intros [x [H1 H2]]; apply leqb_eq in H2; subst; auto|].
    intros H; exists k. split; auto. apply leqb_refl.
  Qed.

  Lemma rfold_with_blocks T (body : btensor G R -> list nat -> result (btensor G R)) (p : list nat -> bool) (val : list nat -> dense R) v (l : list (list nat * dense R)) :
    (forall l idx, In idx v -> body (with_blocks T l) idx
       = Ok (with_blocks T (if p idx then fm_subscript_assign lexb (undefined_tensor R) l idx (val idx) else l))) ->
    rfold body v (with_blocks T l)
    = Ok (with_blocks T (fold_left (fun l idx => if p idx then fm_subscript_assign lexb (undefined_tensor R) l idx (val idx) else l) v l)).
  Proof.
    revert l; induction v as [|x v IH]; intros l H; [reflexivity|]. cbn [rfold fold_left]. rewrite H by (left; auto).
    cbn [rbind]. apply IH. intros; apply H; right; auto.
  Qed.

  Definition same_meta_with T l : same_meta T (with_blocks T l). Proof. repeat split. Qed.

  Lemma fill_all T (p : list nat -> bool) (val : list nat -> dense R) : meta_ok T -> 0 < prod_list (b_sbd T) ->
    (forall idx, in_range (b_sbd T) idx = true -> p idx = true -> allowed T idx /\ dsh (val idx) = pick 0 (legs T) idx) ->
    let out := with_blocks T (fold_left (fun l idx => if p idx then fm_subscript_assign lexb (undefined_tensor R) l idx (val idx) else l)
       (visit (inc_left (b_sbd T)) (prod_list (b_sbd T)) (zeros (length (b_sbd T)))) []) in
    valid out /\
    forall k, assoc leqb k (b_blocks out) = if in_range (b_sbd T) k && p k then Some (val k) else None.
  Proof.
    intros HM Hp HA out. destruct (left_enum _ Hp) as [_ [Hv _]].
    destruct (@fill_spec p val (visit (inc_left (b_sbd T)) (prod_list (b_sbd T)) (zeros (length (b_sbd T)))) []) as [F1 F2];
      [constructor|].
    assert (Ha : forall k, assoc leqb k (b_blocks out) = if in_range (b_sbd T) k && p k then Some (val k) else None).
    { intros k. cbn [out with_blocks b_blocks]. rewrite F2. cbn [assoc].
      assert (existsb (leqb k) (visit (inc_left (b_sbd T)) (prod_list (b_sbd T)) (zeros (length (b_sbd T)))) = in_range (b_sbd T) k) as ->; auto.
      apply eq_true_iff_eq. rewrite existsb_leqb. apply Hv. }
    split; auto. split; [exact HM|]. split; [|exact F1]. apply blocks_ok_assoc; [exact F1|].
    intros b t. rewrite Ha. destruct (in_range (b_sbd T) b) eqn:E1; [|discriminate]. destruct (p b) eqn:E2; [|discriminate].
    cbn [andb]. intros [= <-]. apply (HA b E1 E2).
  Qed.

  Lemma factory_spec T f : meta_ok T -> b_blocks T = [] -> 0 < prod_list (b_sbd T) -> (forall k sh, dsh (f k sh) = sh) ->
    exists out, factory_wrap T f = Ok out /\ same_meta T out /\ valid out /\
    forall k, assoc leqb k (b_blocks out) =
      if in_range (b_sbd T) k && allowedb T k then Some (f k (pick 0 (legs T) k)) else None.
  Proof.
    intros HM HE Hp Hf.
    destruct (@fill_all T (allowedb T) (fun k => f k (pick 0 (legs T) k)) HM Hp) as [V A].
    { intros idx H1 H2. split; [apply allowed_spec; auto|apply Hf]. }
    eexists. split; [|split; [apply same_meta_with|split; [exact V|exact A]]].
    unfold factory_wrap. destruct HM as [HM1 HM2]. rewrite <- HM1. rewrite odo_loop_visit by auto.
    assert (ET : T = with_blocks T []) by (destruct T; cbn in *; subst; reflexivity).
    transitivity (rfold (fun (out : btensor G R) (idx : list nat) =>
      do ok <- block_conservation_rule_test out idx;
      if ok then do sh <- block_sizes out idx; block_assign out idx (f idx sh) else Ok out)
      (visit (inc_left (b_sbd T)) (prod_list (b_sbd T)) (zeros (length (b_sbd T)))) (with_blocks T [])); [congruence|].
    apply rfold_with_blocks. intros l idx Hi. apply (left_enum _ Hp) in Hi.
    change (block_conservation_rule_test (with_blocks T l) idx) with (block_conservation_rule_test T idx).
    rewrite rule_test_spec by (auto; split; auto). cbn [rbind]. destruct (allowedb T idx) eqn:E; auto.
    change (block_sizes (with_blocks T l) idx) with (block_sizes T idx).
    rewrite block_sizes_spec by (auto; split; auto). cbn [rbind]. unfold block_assign.
    change (block_conservation_rule_test (with_blocks T l) idx) with (block_conservation_rule_test T idx).
    rewrite rule_test_spec by (auto; split; auto). cbn [rbind]. rewrite E. reflexivity.
  Qed.

  Lemma from_basic_spec T values signif : meta_ok T -> 0 < prod_list (b_sbd T) -> length (dsh values) = b_rank T ->
    exists out, from_basic T values signif = Ok out /\ same_meta T out /\ valid out /\
    forall k, assoc leqb k (b_blocks out) =
      let blk := d_slice (origin (legs T) k) (pick 0 (legs T) k) values in
      if in_range (b_sbd T) k && (allowedb T k && signif blk) then Some blk else None.
  Proof.
    intros HM Hp Hr.
    pose (val := fun k => d_slice (origin (legs T) k) (pick 0 (legs T) k) values).
    destruct (@fill_all T (fun k => allowedb T k && signif (val k))%bool val HM Hp) as [V A].
    { intros idx H1 H2. apply andb_true_iff in H2 as [H2 _]. split; [apply allowed_spec; auto|reflexivity]. }
    eexists. split; [|split; [apply same_meta_with|split; [exact V|exact A]]].
    unfold from_basic. rewrite Hr, Nat.eqb_refl. cbn [negb]. rewrite <- (proj1 HM) at 1. rewrite odo_loop_visit by auto.
    unfold sparse_zeros_like. apply rfold_with_blocks. intros l idx Hi. apply (left_enum _ Hp) in Hi.
    change (block_conservation_rule_test (with_blocks T l) idx) with (block_conservation_rule_test T idx).
    rewrite rule_test_spec by auto. cbn [rbind]. destruct (allowedb T idx) eqn:E; auto.
    change (full_slice (with_blocks T l) idx) with (full_slice T idx).
    destruct (full_slice_spec _ HM Hi) as [sl [E1 [E2 E3]]]. rewrite E1. cbn [rbind andb]. rewrite E2, E3.
    fold (val idx). destruct (signif (val idx)); auto. unfold block_assign.
    change (block_conservation_rule_test (with_blocks T l) idx) with (block_conservation_rule_test T idx).
    rewrite rule_test_spec by auto. cbn [rbind]. rewrite E. reflexivity.
  Qed.
End P.
