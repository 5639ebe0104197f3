(** Lemmas about reshape_as and reshape. *)
From Verif Require Import Base Quantity QuantityProofs FlatMap SpecFlatMap FlatMapProofs FlatMapThms Ring Index SpecIndex IndexProofs
  Dense BTensor SpecBTensor LegsProofs BTensorProofs BTensorThms BTensorArith ArithProofs Tensordot SpecTensordot TensordotProofs TensordotThms
  Reshape SpecReshape.
From Coq Require Import Permutation.
Set Implicit Arguments.

Lemma fold_mul l a : fold_left Nat.mul l a = a * prod_list l.
Proof. revert a; induction l as [|x l IH]; intros a; cbn [fold_left]; [cbn; lia|]. rewrite IH, prod_list_cons. lia. Qed.

Lemma firstn_subset' A n (l : list A) x : In x (firstn n l) -> In x l.
Proof. intros H. rewrite <- (firstn_skipn n l). apply in_or_app. left; auto. Qed.
Lemma skipn_subset' A n (l : list A) x : In x (skipn n l) -> In x l.
Proof. intros H. rewrite <- (firstn_skipn n l). apply in_or_app. right; auto. Qed.
Lemma nth_repeat_lt A (a d : A) n k : k < n -> nth k (repeat a n) d = a.
Proof. revert k; induction n; intros [|k] H; cbn; auto; try lia. apply IHn. lia. Qed.

Section P.
  Context {G : abgroup} {R : ring}.
  Implicit Types T O : btensor G R.
  Implicit Types ovw : bool.
  Notation entry := (list nat * dense R)%type.

  (** * Blocks moved to new keys *)
  Lemma assoc_rekey (h : list nat -> list nat) (g : list nat -> dense R -> dense R) (l : list entry) k :
    (forall e, In e l -> h (fst e) = h k -> fst e = k) ->
    assoc leqb (h k) (map (fun e => (h (fst e), g (fst e) (snd e))) l) = option_map (g k) (assoc leqb k l).
  Proof.
    induction l as [|e l IH]; intros H; auto. cbn [map assoc fst snd]. destruct (leqb (fst e) k) eqn:E.
    - apply leqb_eq in E. rewrite E, leqb_refl. reflexivity.
    - replace (leqb (h (fst e)) (h k)) with false; [apply IH; intros x Hx; apply H; right; auto|].
      symmetry. apply leqb_neq. apply leqb_neq in E. intros E2. apply E. apply H; auto. left; auto.
  Qed.
  Lemma rekey T (h : list nat -> list nat) (g : list nat -> dense R -> dense R) : valid T ->
    (forall a b, in_range (b_sbd T) a = true -> in_range (b_sbd T) b = true -> h a = h b -> a = b) ->
    let l := fm_sort lexb (map (fun e => (h (fst e), g (fst e) (snd e))) (b_blocks T)) in
    sorted lexb l /\ length l = length (b_blocks T) /\
    (forall k, in_range (b_sbd T) k = true -> assoc leqb (h k) l = option_map (g k) (assoc leqb k (b_blocks T))) /\
    (forall k t, assoc leqb k l = Some t -> exists k' t', assoc leqb k' (b_blocks T) = Some t' /\ k = h k' /\ t = g k' t').
  Proof.
    intros HV Hinj l. pose proof HV as [_ [HB HS]].
    assert (HR : forall e, In e (b_blocks T) -> in_range (b_sbd T) (fst e) = true).
    { intros [k t] He. apply (proj1 (HB _ _ He)). }
    assert (HN : NoDup (map fst (map (fun e => (h (fst e), g (fst e) (snd e))) (b_blocks T)))).
    { rewrite map_map. cbn [fst]. rewrite <- (map_map fst h). apply NoDup_map_inj'; [|apply sorted_nodup; auto].
      intros x y Hx Hy. apply in_map_iff in Hx as [e [<- He]]. apply in_map_iff in Hy as [e' [<- He']]. apply Hinj; auto. }
    destruct (sort_nodup _ HN) as [S1 S2]. fold l in S1, S2. split; auto. split; [|split].
    - unfold l. rewrite <- (Permutation_length (fm_sort_perm _)). apply map_length.
    - intros k Hk. rewrite S2. apply assoc_rekey. intros e He E. apply Hinj; auto.
    - intros k t E. rewrite S2 in E. apply assoc_nodup in E; auto. apply in_map_iff in E as [[k' t'] [[= <- <-] Hi]].
      exists k', t'. split; auto. apply (In_assoc KO); auto.
  Qed.

  Lemma stored_assoc T k : stored T k <-> assoc leqb k (b_blocks T) <> None.
  Proof.
    split.
    - intros [t Hi]. revert Hi. generalize (b_blocks T). intros l. induction l as [|[k' t'] l IH]; intros Hi; [destruct Hi|].
      cbn [assoc fst snd]. destruct (leqb k' k) eqn:E; [discriminate|]. apply IH. destruct Hi as [[= -> ->]|Hi]; auto.
      rewrite leqb_refl in E. discriminate.
    - intros H. destruct (assoc leqb k (b_blocks T)) as [t|] eqn:E; [|congruence]. exists t. apply (assoc_In KO); auto.
  Qed.

  (** * Simultaneous enumeration *)
  Lemma compat_loop_spec A (P : btensor G R -> list nat -> result A) (p : btensor G R -> list nat -> A) aeqb (lhs rhs : btensor G R) :
    (forall k, in_range (b_sbd lhs) k = true -> P lhs k = Ok (p lhs k)) ->
    (forall k, in_range (b_sbd rhs) k = true -> P rhs k = Ok (p rhs k)) ->
    prod_list (b_sbd lhs) = prod_list (b_sbd rhs) -> forall fuel li ri,
    in_range (b_sbd lhs) li = true -> in_range (b_sbd rhs) ri = true -> rowmajor (b_sbd lhs) li = rowmajor (b_sbd rhs) ri ->
    prod_list (b_sbd lhs) <= fuel + rowmajor (b_sbd lhs) li ->
    compat_loop P aeqb lhs rhs fuel li ri
    = Ok (forallb (fun n => aeqb (p lhs (unrank (b_sbd lhs) n)) (p rhs (unrank (b_sbd rhs) n)))
            (seq (rowmajor (b_sbd lhs) li) (prod_list (b_sbd lhs) - rowmajor (b_sbd lhs) li))).
  Proof.
    intros HPl HPr HE. induction fuel as [|f IH]; intros li ri Hl Hr Hlr Hf; pose proof (rowmajor_lt _ _ Hl) as Hlt; [lia|].
    cbn [compat_loop]. rewrite HPl, HPr by auto. cbn [rbind].
    destruct (inc_right_spec _ _ Hl) as [Il El]. destruct (inc_right_spec _ _ Hr) as [Ir Er].
    set (n := rowmajor (b_sbd lhs) li) in *. set (N := prod_list (b_sbd lhs)) in *.
    assert (Efl : p lhs li = p lhs (unrank (b_sbd lhs) n)) by (unfold n; rewrite unrank_rowmajor; auto).
    assert (Efr : p rhs ri = p rhs (unrank (b_sbd rhs) n)) by (rewrite Hlr, unrank_rowmajor; auto).
    replace (N - n) with (Datatypes.S (N - n - 1)) by lia. cbn [seq forallb]. rewrite <- Efl, <- Efr.
    destruct (aeqb (p lhs li) (p rhs ri)); cbn [andb]; [|rewrite andb_false_r; reflexivity]. rewrite andb_true_r.
    destruct (n + 1 =? N) eqn:EN.
    - apply Nat.eqb_eq in EN. replace (N - n - 1) with 0 by lia. cbn [seq forallb].
      replace (any_truth _) with false; [reflexivity|]. symmetry. apply any_truth_false.
      apply (rowmajor_inj (b_sbd lhs)); auto; rewrite (in_range_length _ _ Il); [apply zeros_in_range; lia|rewrite rowmajor_zeros; auto].
    - apply Nat.eqb_neq in EN. replace (any_truth _) with true.
      + rewrite IH; auto.
        * rewrite El. f_equal. f_equal. f_equal; lia.
        * rewrite El, Er, <- Hlr, <- HE. fold N. rewrite (proj2 (Nat.eqb_neq _ _) EN). reflexivity.
        * rewrite El. lia.
      + symmetry. destruct (any_truth _) eqn:E; auto. apply any_truth_false in E. rewrite E in El.
        rewrite (in_range_length _ _ Il), rowmajor_zeros in El. lia.
  Qed.
  Lemma compat_spec A (P : btensor G R -> list nat -> result A) (p : btensor G R -> list nat -> A) aeqb (lhs rhs : btensor G R) :
    (forall x y, aeqb x y = true <-> x = y) -> meta_ok lhs -> meta_ok rhs ->
    (forall T k, meta_ok T -> in_range (b_sbd T) k = true -> P T k = Ok (p T k)) ->
    prod_list (b_sbd lhs) = prod_list (b_sbd rhs) -> 0 < prod_list (b_sbd lhs) ->
    exists r, compat_loop P aeqb lhs rhs (Datatypes.S (prod_list (b_sbd lhs))) (zeros (b_rank lhs)) (zeros (b_rank rhs)) = Ok r /\
      (r = true <-> forall a b, same_rank (b_sbd lhs) a (b_sbd rhs) b -> p lhs a = p rhs b).
  Proof.
    intros HA Ml Mr HP HE Hpos.
    assert (Zl : in_range (b_sbd lhs) (zeros (b_rank lhs)) = true) by (rewrite <- (proj1 Ml); apply zeros_in_range; auto).
    assert (Zr : in_range (b_sbd rhs) (zeros (b_rank rhs)) = true) by (rewrite <- (proj1 Mr); apply zeros_in_range; lia).
    assert (Rl : rowmajor (b_sbd lhs) (zeros (b_rank lhs)) = 0) by (rewrite <- (proj1 Ml); apply rowmajor_zeros).
    assert (Rr : rowmajor (b_sbd rhs) (zeros (b_rank rhs)) = 0) by (rewrite <- (proj1 Mr); apply rowmajor_zeros).
    eexists. split; [apply compat_loop_spec with (p := p); auto; lia|].
    rewrite Rl, Nat.sub_0_r, forallb_forall. split.
    - intros H a b (H1 & H2 & H3). specialize (H (rowmajor (b_sbd lhs) a)). rewrite unrank_rowmajor in H by auto.
      rewrite H3, unrank_rowmajor in H by auto. apply HA. apply H. apply in_seq. pose proof (rowmajor_lt _ _ H1). lia.
    - intros H n Hn. apply in_seq in Hn. apply HA. apply H. repeat split.
      + apply unrank_in_range; lia.
      + apply unrank_in_range; lia.
      + rewrite !rowmajor_unrank by lia. reflexivity.
  Qed.

  (** * reshape_as *)
  Definition rk (T O : btensor G R) (k : list nat) : list nat := unrank (b_sbd O) (rowmajor (b_sbd T) k).
  Lemma rk_same_rank T O k : prod_list (b_sbd T) = prod_list (b_sbd O) -> in_range (b_sbd T) k = true ->
    same_rank (b_sbd T) k (b_sbd O) (rk T O k).
  Proof.
    intros HE Hk. pose proof (rowmajor_lt _ _ Hk). split; auto. split; [apply unrank_in_range; lia|].
    unfold rk. rewrite rowmajor_unrank; lia.
  Qed.
  Lemma rk_inj T O a b : prod_list (b_sbd T) = prod_list (b_sbd O) -> in_range (b_sbd T) a = true -> in_range (b_sbd T) b = true ->
    rk T O a = rk T O b -> a = b.
  Proof.
    intros HE Ha Hb E. apply (rowmajor_inj (b_sbd T)); auto.
    destruct (rk_same_rank T O _ HE Ha) as (_ & _ & ->). destruct (rk_same_rank T O _ HE Hb) as (_ & _ & ->). congruence.
  Qed.
  Lemma rk4 T O k : prod_list (b_sbd T) = prod_list (b_sbd O) -> in_range (b_sbd T) k = true ->
    reshape_block_index4 k (b_sbd O) (b_sbd T) = rk T O k.
  Proof.
    intros HE Hk. unfold reshape_block_index4, rk. rewrite cpp_flatten_rowmajor by (apply in_range_length; auto).
    apply cpp_unflatten_unrank. pose proof (rowmajor_lt _ _ Hk). lia.
  Qed.
  Lemma flux_spec T k : meta_ok T -> in_range (b_sbd T) k = true -> flux T k = Ok (qprod G (pick (qe G) (qlegs T) k)).
  Proof. intros HM Hk. unfold flux. rewrite block_quantities_spec by auto. cbn [rbind]. rewrite fold_qop_e. reflexivity. Qed.
  Lemma volume_spec T k : meta_ok T -> in_range (b_sbd T) k = true -> volume T k = Ok (prod_list (pick 0 (legs T) k)).
  Proof. intros HM Hk. unfold volume. rewrite block_sizes_spec by auto. cbn [rbind]. rewrite fold_mul. f_equal. lia. Qed.

  (** The tensor built by [reshape_as]. *)
  Definition reshaped (ovw : bool) T (O : btensor G R) : btensor G R :=
    @mkB G R (if ovw then b_rule O else b_rule T) (b_rank O) (b_sbd O) (b_ss O) (b_cv O)
      (fm_sort lexb (map (fun e : entry => (rk T O (fst e), d_reshape (pick 0 (legs O) (rk T O (fst e))) (snd e))) (b_blocks T))).

  Lemma reshaped_spec ovw T O : valid T -> meta_ok O -> same_volumes T O ->
    (forall k t, assoc leqb k (b_blocks T) = Some t ->
       qprod G (pick (qe G) (qlegs O) (rk T O k)) = if ovw then b_rule O else b_rule T) ->
    valid (reshaped ovw T O) /\ same_entries T (reshaped ovw T O).
  Proof.
    intros HV MO [HE HVol] HF. set (S := reshaped ovw T O). pose proof HV as [HM [HB HS]].
    destruct (rekey (T := T) (rk T O) (fun k t => d_reshape (pick 0 (legs O) (rk T O k)) t) HV) as (S1 & S2 & S3 & S4).
    { intros a b. apply rk_inj; auto. }
    assert (MS : meta_ok S) by exact MO.
    split.
    - split; auto. split; auto. apply blocks_ok_assoc; auto. intros k t E. destruct (S4 k t E) as (k' & t' & E' & -> & ->).
      destruct (valid_assoc _ HV E') as [[A1 A2] A3]. split; [|reflexivity].
      split; [apply (rk_same_rank T O _ HE A1)|]. apply (HF _ _ E').
    - intros a b Hab. assert (Eb : b = rk T O a).
      { destruct Hab as (Ha & Hb & Hr). apply (rowmajor_inj (b_sbd O)); auto; [apply (rk_same_rank T O _ HE Ha)|].
        destruct (rk_same_rank T O _ HE Ha) as (_ & _ & Hx). rewrite <- Hx. symmetry. exact Hr. }
      subst b. split; [rewrite !stored_assoc; cbn [S reshaped b_blocks]; rewrite S3 by apply Hab; destruct (assoc leqb a (b_blocks T)); cbn; split; congruence|].
      intros o p (Ho & Hp & Hop). unfold bentry. change (b_blocks S) with (fm_sort lexb (map (fun e : entry => (rk T O (fst e), d_reshape (pick 0 (legs O) (rk T O (fst e))) (snd e))) (b_blocks T))).
      rewrite S3 by apply Hab. destruct (assoc leqb a (b_blocks T)) as [t|] eqn:E; cbn [option_map]; auto.
      cbn [d_reshape dv]. destruct (valid_assoc _ HV E) as [_ A3]. rewrite A3.
      change (legs S) with (legs O) in Hop. rewrite <- Hop. rewrite decode_rowmajor; auto.
  Qed.

  Lemma reshape_as_ok ovw T O : valid T -> meta_ok O -> (forall n, In n (b_sbd T) -> 0 < n) -> same_volumes T O ->
    (if ovw then forall k t, assoc leqb k (b_blocks T) = Some t -> allowed O (rk T O k) else same_fluxes T O) ->
    reshape_as ovw T O = Ok (reshaped ovw T O) /\ valid (reshaped ovw T O) /\ same_entries T (reshaped ovw T O).
  Proof.
    intros HV MO HP HVol HF. pose proof HV as [HM [HB HS]]. pose proof HVol as [HE HV2].
    assert (Hpos : 0 < prod_list (b_sbd T)) by (apply prod_pos; auto).
    assert (HS' : valid (reshaped ovw T O) /\ same_entries T (reshaped ovw T O)).
    { apply reshaped_spec; auto. intros k t E. destruct ovw.
      - apply (HF k t E).
      - destruct (valid_assoc _ HV E) as [[A1 A2] _]. rewrite <- A2. symmetry. apply HF. apply rk_same_rank; auto. }
    split; auto. unfold reshape_as. rewrite <- HE, Nat.eqb_refl. cbn [negb].
    destruct (compat_spec flux (fun T k => qprod G (pick (qe G) (qlegs T) k)) (qeqb G) (@qeqb_spec G) HM MO flux_spec HE Hpos) as (rc & Ec & Hc).
    destruct (compat_spec volume (fun T k => prod_list (pick 0 (legs T) k)) Nat.eqb Nat.eqb_eq HM MO volume_spec HE Hpos) as (rv & Ev & Hv).
    assert (rv = true) as -> by (apply Hv; auto).
    assert (Ec' : (if ovw then Ok true else compatible_c_vals T O) = Ok true).
    { destruct ovw; auto. unfold compatible_c_vals. rewrite Ec. f_equal. apply Hc. auto. }
    rewrite Ec'. cbn [rbind negb]. unfold compatible_block_size. rewrite Ev. cbn [rbind negb].
    rewrite rmapM_pure with (g := fun e => (rk T O (fst e), d_reshape (pick 0 (legs O) (rk T O (fst e))) (snd e))).
    - cbn [rbind]. apply valid_make. apply HS'.
    - intros [k t] Hi. destruct (HB _ _ Hi) as [[A1 A2] A3]. rewrite rk4 by auto. destruct (rk_same_rank T O _ HE A1) as (_ & R1 & R2).
      assert (Et : (if ovw then block_conservation_rule_test O (rk T O k) else Ok true) = Ok true).
      { destruct ovw; auto. rewrite rule_test_spec by auto. f_equal. apply (In_assoc KO) in Hi; auto. specialize (HF _ _ Hi).
        apply allowed_spec in HF. apply HF. }
      rewrite Et. cbn [rbind negb]. rewrite block_sizes_spec by auto. cbn [rbind]. unfold t_reshape. rewrite A3.
      rewrite (proj2 (Nat.eqb_eq _ _)); [reflexivity|]. symmetry. apply HV2. split; auto.
  Qed.

  (** Rejections. *)
  Lemma reshape_as_rejects T O : valid T -> meta_ok O -> (forall n, In n (b_sbd T) -> 0 < n) ->
    ~ (same_volumes T O /\ same_fluxes T O) -> reshape_as false T O = Throw InvalidArgument.
  Proof.
    intros HV MO HP HN. pose proof HV as [HM _]. assert (Hpos : 0 < prod_list (b_sbd T)) by (apply prod_pos; auto).
    unfold reshape_as. destruct (Nat.eqb_spec (prod_list (b_sbd O)) (prod_list (b_sbd T))) as [HE|HE]; [|reflexivity].
    cbn [negb]. symmetry in HE.
    destruct (compat_spec flux (fun T k => qprod G (pick (qe G) (qlegs T) k)) (qeqb G) (@qeqb_spec G) HM MO flux_spec HE Hpos) as (rc & Ec & Hc).
    destruct (compat_spec volume (fun T k => prod_list (pick 0 (legs T) k)) Nat.eqb Nat.eqb_eq HM MO volume_spec HE Hpos) as (rv & Ev & Hv).
    unfold compatible_c_vals. rewrite Ec. cbn [rbind]. destruct rc; [|reflexivity]. cbn [negb].
    unfold compatible_block_size. rewrite Ev. cbn [rbind]. destruct rv; [|reflexivity]. exfalso. apply HN. split; [split; auto|].
    - exact (proj1 Hv eq_refl).
    - exact (proj1 Hc eq_refl).
  Qed.

  (** * Groups *)
  Fixpoint rng (a : nat) (gl : list nat) : list (nat * nat) := match gl with [] => [] | n :: r => (a, a + n) :: rng (a + n) r end.
  Lemma pairs_rng a gl : pairs (starts a gl ++ [a + sum_list gl]) = rng a gl.
  Proof.
    revert a; induction gl as [|n gl IH]; intros a; [reflexivity|]. cbn [starts app rng]. rewrite sum_list_cons, Nat.add_assoc.
    rewrite <- IH. unfold pairs. cbn [tl combine]. destruct gl as [|m gl].
    - cbn. f_equal. f_equal. lia.
    - cbn [starts app]. reflexivity.
  Qed.
  Lemma groups_pairs gl rank : gl <> [] -> sum_list gl = rank -> pairs (0 :: boundaries gl ++ [rank]) = rng 0 gl.
  Proof.
    intros Hn <-. rewrite <- pairs_rng. f_equal. unfold boundaries. destruct gl; [congruence|]. cbn [starts tl app]. reflexivity.
  Qed.
  Lemma seg_rng A a gl (l : list A) : map (fun '(x, y) => seg x y l) (rng a gl) = unpack gl (skipn a l).
  Proof.
    revert a; induction gl as [|n gl IH]; intros a; [reflexivity|]. cbn [rng map unpack]. rewrite IH. f_equal.
    - unfold seg. f_equal. lia.
    - rewrite skipn_skipn'. reflexivity.
  Qed.
  Lemma rng_In a gl x y : In (x, y) (rng a gl) -> a <= x /\ x <= y /\ y <= a + sum_list gl.
  Proof.
    revert a; induction gl as [|n gl IH]; intros a H; [destruct H|]. rewrite sum_list_cons. destruct H as [[= <- <-]|H]; [lia|].
    apply IH in H. lia.
  Qed.
  Lemma seg_length A x y (l : list A) : x <= y -> y <= length l -> length (seg x y l) = y - x.
  Proof. intros. unfold seg. rewrite firstn_length, skipn_length. lia. Qed.
  Lemma seg_nth A (d : A) x y l i : i < y - x -> nth i (seg x y l) d = nth (i + x) l d.
  Proof.
    intros H. unfold seg. rewrite <- (firstn_skipn x l) at 2. destruct (Nat.le_gt_cases (length l) x) as [E|E].
    - rewrite (skipn_all2 l) by lia. rewrite firstn_nil, app_nil_r, !nth_overflow; auto; [rewrite firstn_length; lia|cbn; lia].
    - rewrite app_nth2; rewrite firstn_length_le by lia; [|lia]. replace (i + x - x) with i by lia.
      rewrite <- (firstn_skipn (y - x) (skipn x l)) at 2. destruct (Nat.lt_ge_cases i (length (firstn (y - x) (skipn x l)))) as [H1|H1].
      + rewrite app_nth1; auto.
      + rewrite !nth_overflow; auto. rewrite app_length, firstn_length, skipn_length, !skipn_length in *. lia.
  Qed.

  Lemma nth_idxs sh b : in_range sh b = true -> forall d, nth (rowmajor sh b) (idxs sh) d = b.
  Proof.
    intros H d. pose proof (rowmajor_lt _ _ H) as Hl. rewrite <- map_unrank_idxs.
    rewrite (nth_indep _ d (unrank sh 0)) by (rewrite map_length, seq_length; auto).
    rewrite map_nth, seq_nth by auto. cbn. apply unrank_rowmajor; auto.
  Qed.

  Lemma odo_loop_right S (body : S -> list nat -> result S) sh s : 0 < prod_list sh ->
    odo_loop body (inc_right sh) (Datatypes.S (prod_list sh)) s (zeros (length sh)) = rfold body (idxs sh) s.
  Proof.
    intros Hp. assert (H : forall r s k, in_range sh k = true -> r + rowmajor sh k = prod_list sh -> 0 < r ->
      odo_loop body (inc_right sh) (Datatypes.S r) s k = rfold body (map (unrank sh) (seq (rowmajor sh k) r)) s).
    { induction r as [|r IH]; intros s0 k Hk Hr H0; [lia|]. destruct (inc_right_spec _ _ Hk) as [I1 I2].
      cbn [seq map rfold]. rewrite unrank_rowmajor by auto. cbn [odo_loop]. destruct (body s0 k) as [s'| |]; cbn [rbind]; auto.
      destruct (Nat.eq_dec r 0) as [->|Hr0].
      - replace (rowmajor sh k + 1 =? prod_list sh) with true in I2 by (symmetry; apply Nat.eqb_eq; lia).
        replace (any_truth _) with false; [reflexivity|]. symmetry. apply any_truth_false.
        apply (rowmajor_inj sh); auto; rewrite (in_range_length _ _ I1); [apply zeros_in_range; auto|rewrite rowmajor_zeros; auto].
      - replace (rowmajor sh k + 1 =? prod_list sh) with false in I2 by (symmetry; apply Nat.eqb_neq; lia).
        replace (any_truth _) with true.
        + replace (Datatypes.S (rowmajor sh k)) with (rowmajor sh (inc_right sh k)) by lia. apply IH; auto; lia.
        + symmetry. destruct (any_truth _) eqn:E; auto. apply any_truth_false in E. rewrite E in I2.
          rewrite (in_range_length _ _ I1), rowmajor_zeros in I2. lia. }
    rewrite (H (prod_list sh)); auto.
    - rewrite rowmajor_zeros, map_unrank_idxs. reflexivity.
    - apply zeros_in_range; auto.
    - rewrite rowmajor_zeros. lia.
  Qed.
  Lemma rfold_collect A B (f : list B -> A -> result (list B)) (g : A -> B) l acc :
    (forall acc a, In a l -> f acc a = Ok (acc ++ [g a])) -> rfold f l acc = Ok (acc ++ map g l).
  Proof.
    revert acc; induction l as [|a l IH]; intros acc H; cbn [rfold map]; [rewrite app_nil_r; reflexivity|].
    rewrite H by (left; auto). cbn [rbind]. rewrite IH by (intros; apply H; right; auto). rewrite <- app_assoc. reflexivity.
  Qed.
  Lemma rfold_collects A B (f : list B -> A -> result (list B)) (g : A -> list B) l acc :
    (forall acc a, In a l -> f acc a = Ok (acc ++ g a)) -> rfold f l acc = Ok (acc ++ concat (map g l)).
  Proof.
    revert acc; induction l as [|a l IH]; intros acc H; cbn [rfold map concat]; [rewrite app_nil_r; reflexivity|].
    rewrite H by (left; auto). cbn [rbind]. rewrite IH by (intros; apply H; right; auto). rewrite <- app_assoc. reflexivity.
  Qed.

  Lemma block_prop_spec A (dflt : A) (mul : A -> A -> A) gl g sbd vals val : gl <> [] -> sum_list gl = length sbd ->
    g = 0 :: boundaries gl ++ [length sbd] -> sum_list sbd = length vals -> (forall n, In n sbd -> 0 < n) ->
    reshape_block_prop mul g vals val (sum_list (map prod_list (unpack gl sbd))) sbd
      (map (fun i => sum_list (firstn i sbd)) (seq 0 (length sbd)))
    = Ok (concat (map (fun L => map (fun b => fold_left mul (pick dflt L b) val) (idxs (lens L))) (unpack gl (unpack sbd vals)))).
  Proof.
    intros Hgl Hsum -> Hv Hp. unfold reshape_block_prop. rewrite groups_pairs by auto.
    set (ff := fun L : list (list A) => map (fun b => fold_left mul (pick dflt L b) val) (idxs (lens L))).
    assert (HL : forall x y, x <= y -> y <= length sbd -> lens (seg x y (unpack sbd vals)) = seg x y sbd).
    { intros x y H1 H2. unfold seg, lens. rewrite <- firstn_map. f_equal. rewrite <- (unpack_lengths sbd vals) at 2 by lia.
      symmetry. apply skipn_map. }
    rewrite rfold_collects with (g := fun '(x, y) => ff (seg x y (unpack sbd vals))).
    - cbn [app rbind]. replace (map (fun '(x, y) => ff (seg x y (unpack sbd vals))) (rng 0 gl)) with (map ff (unpack gl (unpack sbd vals))).
      2: { change (unpack sbd vals) with (skipn 0 (unpack sbd vals)) at 1. rewrite <- seg_rng, map_map. apply map_ext. intros [? ?]; reflexivity. }
      assert (HLen : length (concat (map ff (unpack gl (unpack sbd vals)))) = sum_list (map prod_list (unpack gl sbd))).
      { rewrite concat_length. unfold lens. rewrite map_map. f_equal. unfold ff.
        rewrite <- (unpack_lengths sbd vals) at 2 by lia. fold (lens (unpack sbd vals)).
        assert (EU : unpack gl (lens (unpack sbd vals)) = map lens (unpack gl (unpack sbd vals))) by (apply unpack_map).
        rewrite EU, map_map. apply map_ext. intros L. rewrite map_length, idxs_length. reflexivity. }
      rewrite HLen, Nat.leb_refl, Nat.sub_diag. cbn [repeat]. rewrite app_nil_r. reflexivity.
    - intros acc [x y] Hxy. apply rng_In in Hxy as (_ & H1 & H2). cbn in H2.
      rewrite (proj2 (Nat.leb_le _ _) H1), (proj2 (Nat.leb_le y _)) by lia. cbn [andb negb].
      assert (Hs : length (seg x y sbd) = y - x) by (apply seg_length; lia).
      replace (zeros (y - x)) with (zeros (length (seg x y sbd))) by (rewrite Hs; reflexivity).
      rewrite odo_loop_right.
      2: { apply prod_pos. intros c Hc. apply Hp. unfold seg in Hc. apply firstn_subset' in Hc. apply skipn_subset' in Hc. auto. }
      unfold ff. rewrite HL by lia. apply rfold_collect. intros acc' j Hj. apply idxs_In in Hj.
      pose proof (in_range_length _ _ Hj) as Lj. rewrite Hs in Lj.
      set (pk := pick dflt (seg x y (unpack sbd vals)) j).
      assert (Lsu : length (seg x y (unpack sbd vals)) = y - x) by (apply seg_length; rewrite ?unpack_length; lia).
      assert (Lpk : length pk = y - x) by (unfold pk; rewrite pick_length; lia).
      rewrite rfold_pure with (g := fun v i => mul v (nth i pk dflt)).
      + cbn [rbind]. rewrite <- Lpk. rewrite (fold_left_map' mul (fun i => nth i pk dflt)). rewrite map_nth_seq. reflexivity.
      + intros v i Hi. apply in_seq in Hi. rewrite (rnth_Ok 0) by (rewrite map_length, seq_length; lia). cbn [rbind].
        rewrite (rnth_Ok 0) by lia. cbn [rbind].
        assert (Ea : nth (i + x) (map (fun i0 => sum_list (firstn i0 sbd)) (seq 0 (length sbd))) 0 = sum_list (firstn (i + x) sbd)).
        { rewrite nth_indep with (d' := sum_list (firstn 0 sbd)) by (rewrite map_length, seq_length; lia).
          rewrite (map_nth (fun i0 => sum_list (firstn i0 sbd))), seq_nth by lia. reflexivity. }
        rewrite Ea. fold (address sbd (i + x) (nth i j 0)).
        assert (Hji : nth i j 0 < nth (i + x) sbd 0).
        { apply in_range_nth in Hj as [_ Hj]. specialize (Hj i ltac:(lia)). rewrite seg_nth in Hj by lia. exact Hj. }
        rewrite (rnth_Ok dflt) by (rewrite <- Hv; apply address_lt; auto; lia). cbn [rbind]. f_equal. f_equal.
        change (psection dflt sbd vals (i + x) (nth i j 0) = nth i pk dflt). rewrite psection_unpack by (auto; lia).
        unfold pk. rewrite pick_nth by lia. rewrite seg_nth by lia. reflexivity.
  Qed.

  (** ** Shapes of groups *)
  Lemma rowmajor_concat Ls Is : map (@length nat) Ls = map (@length nat) Is ->
    rowmajor (map prod_list Ls) (map2 rowmajor Ls Is) = rowmajor (concat Ls) (concat Is).
  Proof.
    revert Is; induction Ls as [|l Ls IH]; intros [|i Is] H; try discriminate; [reflexivity|]. injection H as H1 H2.
    cbn [map map2 rowmajor concat]. rewrite rowmajor_app by auto. rewrite IH by auto. f_equal. f_equal.
    clear. induction Ls as [|l Ls IH]; [reflexivity|]. cbn [map concat]. rewrite prod_list_cons, prod_list_app, IH. reflexivity.
  Qed.
  Lemma prod_concat Ls : prod_list (map prod_list Ls) = prod_list (concat Ls).
  Proof. induction Ls as [|l Ls IH]; [reflexivity|]. cbn [map concat]. rewrite prod_list_cons, prod_list_app, IH. reflexivity. Qed.
  Lemma in_range_concat Ls Is : map (@length nat) Ls = map (@length nat) Is -> in_range (concat Ls) (concat Is) = true ->
    in_range (map prod_list Ls) (map2 rowmajor Ls Is) = true.
  Proof.
    revert Is; induction Ls as [|l Ls IH]; intros [|i Is] H HR; try discriminate; [reflexivity|]. injection H as H1 H2.
    cbn [concat] in HR. rewrite in_range_app in HR by auto. apply andb_true_iff in HR as [R1 R2].
    cbn [map map2]. apply in_range_cons. split; [apply rowmajor_lt; auto|apply IH; auto].
  Qed.
  Lemma grouped_facts gl sh i : sum_list gl = length sh -> in_range sh i = true ->
    rowmajor (map prod_list (unpack gl sh)) (grouped gl sh i) = rowmajor sh i /\
    in_range (map prod_list (unpack gl sh)) (grouped gl sh i) = true.
  Proof.
    intros HS HR. pose proof (in_range_length _ _ HR) as HL. unfold grouped.
    assert (HE : map (@length nat) (unpack gl sh) = map (@length nat) (unpack gl i)) by (rewrite !unpack_lengths; auto; lia).
    split.
    - rewrite rowmajor_concat by auto. rewrite !concat_unpack by lia. reflexivity.
    - apply in_range_concat; auto. rewrite !concat_unpack by lia. auto.
  Qed.
  Lemma grouped_inj gl sh a b : sum_list gl = length sh -> in_range sh a = true -> in_range sh b = true ->
    grouped gl sh a = grouped gl sh b -> a = b.
  Proof.
    intros HS Ha Hb E. apply (rowmajor_inj sh); auto. destruct (grouped_facts _ _ _ HS Ha) as [<- _].
    destruct (grouped_facts _ _ _ HS Hb) as [<- _]. rewrite E. reflexivity.
  Qed.
  Lemma unpack_pick A (dflt : A) gl L b : length b = length L -> sum_list gl = length L ->
    unpack gl (pick dflt L b) = map2 (fun g x => pick dflt g x) (unpack gl L) (unpack gl b).
  Proof.
    revert L b; induction gl as [|n gl IH]; intros L b H1 H2; [reflexivity|]. rewrite sum_list_cons in H2. cbn [unpack map2].
    assert (HP : pick dflt L b = pick dflt (firstn n L) (firstn n b) ++ pick dflt (skipn n L) (skipn n b)).
    { rewrite <- pick_app by (rewrite !firstn_length; lia). rewrite !firstn_skipn. reflexivity. }
    assert (HL : length (pick dflt (firstn n L) (firstn n b)) = n) by (rewrite pick_length; rewrite !firstn_length; lia).
    rewrite HP. rewrite firstn_app, skipn_app, HL, Nat.sub_diag. cbn [firstn skipn]. rewrite app_nil_r.
    rewrite (firstn_all2 (pick dflt (firstn n L) (firstn n b))) by lia. rewrite (skipn_all2 (pick dflt (firstn n L) (firstn n b))) by lia.
    cbn [app]. f_equal. apply IH; rewrite !skipn_length; lia.
  Qed.
  (** The property of a merged section is that of its members. *)
  Lemma pick_merged A B (dfA : A) (dflt : B) (f : list A -> B) gl (L : list (list A)) b : sum_list gl = length L -> in_range (lens L) b = true ->
    pick dflt (map (fun g => map (fun k => f (pick dfA g k)) (idxs (lens g))) (unpack gl L)) (grouped gl (lens L) b)
    = map f (unpack gl (pick dfA L b)).
  Proof.
    intros HS HR. pose proof (in_range_length _ _ HR) as HL. unfold lens in HL. rewrite map_length in HL. rewrite unpack_pick by auto.
    unfold grouped. clear HL. revert L b HS HR. induction gl as [|n gl IH]; intros L b HS HR; [reflexivity|]. rewrite sum_list_cons in HS.
    pose proof (in_range_length _ _ HR) as HL. unfold lens in HL. rewrite map_length in HL.
    cbn [unpack map map2 pick]. 
    assert (HR2 : in_range (lens (firstn n L)) (firstn n b) = true /\ in_range (lens (skipn n L)) (skipn n b) = true).
    { rewrite <- (firstn_skipn n L), <- (firstn_skipn n b) in HR. unfold lens in *. rewrite map_app in HR.
      rewrite in_range_app in HR by (rewrite map_length, !firstn_length; lia). apply andb_true_iff in HR. exact HR. }
    destruct HR2 as [R1 R2].
    assert (E1 : firstn n (lens L) = lens (firstn n L)) by apply firstn_map.
    assert (E2 : skipn n (lens L) = lens (skipn n L)) by apply skipn_map.
    f_equal.
    - rewrite E1. rewrite nth_indep with (d' := f (pick dfA (firstn n L) [])) by (rewrite map_length, idxs_length; apply rowmajor_lt; auto).
      rewrite (map_nth (fun k => f (pick dfA (firstn n L) k))). rewrite nth_idxs by auto. reflexivity.
    - rewrite E2. apply IH; auto. rewrite skipn_length. lia.
  Qed.

  (** ** The loop of [new_block_shape] *)
  Lemma upd_nth A (d : A) l n a k : n < length l -> nth k (upd l n a) d = if k =? n then a else nth k l d.
  Proof.
    intros Hn. unfold upd. destruct (Nat.eqb_spec k n) as [->|Hk].
    - rewrite app_nth2; rewrite firstn_length_le by lia; [|lia]. rewrite Nat.sub_diag. reflexivity.
    - destruct (Nat.lt_ge_cases k n) as [H|H].
      + rewrite app_nth1 by (rewrite firstn_length_le; lia). rewrite <- (firstn_skipn n l) at 2. rewrite app_nth1; auto. rewrite firstn_length_le; lia.
      + rewrite app_nth2; rewrite firstn_length_le by lia; [|lia]. rewrite <- (firstn_skipn (S n) l) at 2.
        rewrite app_nth2; rewrite firstn_length_le by lia; [|lia]. destruct (k - n) eqn:E; [lia|]. cbn. f_equal. lia.
  Qed.
  Lemma upd_len A (l : list A) n a : n < length l -> length (upd l n a) = length l.
  Proof. intros Hn. unfold upd. rewrite app_length. cbn [length]. rewrite firstn_length_le, skipn_length by lia. lia. Qed.

  Definition nbs_step (g sizes : list nat) : nat * nat * list nat -> nat -> result (nat * nat * list nat) :=
    fun '(p, gp, out) i =>
        do bound <- rnth g gp ;
        let '(p, gp) := if bound <=? i then (S p, S gp) else (p, gp) in
        do o <- rnth out p ;
        do s <- rnth sizes i ;
        Ok (p, gp, upd out p (o * s)).
  (** Inside a group. *)
  Lemma nbs_inner g sizes p gp out x m : gp < length g -> x + m <= nth gp g 0 -> x + m <= length sizes -> p < length out ->
    rfold (nbs_step g sizes) (seq x m) (p, gp, out) = Ok (p, gp, upd out p (nth p out 0 * prod_list (seg x (x + m) sizes))).
  Proof.
    intros Hg Hb Hs Hp. revert x out Hb Hs Hp. induction m as [|m IH]; intros x out Hb Hs Hp.
    - cbn [seq rfold]. f_equal. f_equal. unfold seg. rewrite Nat.add_0_r, Nat.sub_diag. cbn [firstn]. change (prod_list []) with 1. rewrite Nat.mul_1_r.
      apply (nth_ext' 0); [rewrite upd_len; auto|]. intros k Hk. rewrite upd_nth by auto. destruct (Nat.eqb_spec k p); congruence.
    - cbn [seq rfold]. unfold nbs_step at 1. rewrite (rnth_Ok 0) by auto. cbn [rbind].
      replace (nth gp g 0 <=? x) with false by (symmetry; apply Nat.leb_gt; lia). rewrite (rnth_Ok 0) by auto. cbn [rbind].
      rewrite (rnth_Ok 0) by lia. cbn [rbind]. rewrite IH by (rewrite ?upd_len; auto; lia). f_equal. f_equal.
      assert (ES : seg x (x + S m) sizes = nth x sizes 0 :: seg (S x) (S x + m) sizes).
      { unfold seg. replace (x + S m - x) with (S m) by lia. replace (S x + m - S x) with m by lia.
        assert (skipn x sizes = nth x sizes 0 :: skipn (S x) sizes) as ->; [|reflexivity].
        clear - Hs. assert (x < length sizes) by lia. clear Hs. revert x H. induction sizes as [|a l IH]; intros [|x] H; cbn in H; try lia; [reflexivity|].
        cbn [skipn nth]. rewrite IH by lia. reflexivity. }
      apply (nth_ext' 0); [rewrite !upd_len; rewrite ?upd_len; auto|]. intros k Hk. rewrite !upd_nth by (rewrite ?upd_len; auto).
      rewrite Nat.eqb_refl. destruct (k =? p); auto. rewrite ES, prod_list_cons. lia.
  Qed.
  Lemma starts_nth gl a k : k <= length gl -> nth k (starts a gl ++ [a + sum_list gl]) 0 = a + sum_list (firstn k gl).
  Proof.
    revert a k; induction gl as [|n gl IH]; intros a k H.
    - assert (k = 0) by (cbn in H; lia). subst. cbn. lia.
    - destruct k as [|k]; [cbn; lia|]. cbn [starts app nth firstn]. rewrite !sum_list_cons, Nat.add_assoc. rewrite IH by (cbn in H; lia). lia.
  Qed.
  Lemma starts_length gl a : length (starts a gl) = length gl.
  Proof. revert a; induction gl; intros; cbn; auto. Qed.
  Lemma sum_firstn_S gl k : k < length gl -> sum_list (firstn (S k) gl) = sum_list (firstn k gl) + nth k gl 0.
  Proof.
    revert k; induction gl as [|n gl IH]; intros [|k] H; cbn in H; try lia; [cbn; lia|].
    change (firstn (S (S k)) (n :: gl)) with (n :: firstn (S k) gl). change (firstn (S k) (n :: gl)) with (n :: firstn k gl).
    rewrite !sum_list_cons, IH by lia. cbn [nth]. lia.
  Qed.
  Lemma sum_firstn_le gl k : sum_list (firstn k gl) <= sum_list gl.
  Proof. rewrite <- (firstn_skipn k gl) at 2. rewrite sum_list_app. lia. Qed.
  Lemma unpack_nth A gl (l : list A) k : k < length gl -> nth k (unpack gl l) [] = seg (sum_list (firstn k gl)) (sum_list (firstn (S k) gl)) l.
  Proof.
    intros H. rewrite sum_firstn_S by auto. unfold seg. replace (_ + _ - _) with (nth k gl 0) by lia.
    rewrite <- prange_unpack by auto. reflexivity.
  Qed.
  Lemma new_block_shape_spec gl sizes : gl <> [] -> (forall n, In n gl -> 0 < n) -> sum_list gl = length sizes ->
    new_block_shape (0 :: boundaries gl ++ [length sizes]) sizes (length gl) = Ok (map prod_list (unpack gl sizes)).
  Proof.
    intros Hn Hpos Hsum. set (g := 0 :: boundaries gl ++ [length sizes]).
    assert (Eg : g = starts 0 gl ++ [0 + sum_list gl]).
    { unfold g, boundaries. destruct gl; [congruence|]. cbn [starts tl app]. rewrite Hsum. reflexivity. }
    assert (Lg : length g = S (length gl)) by (rewrite Eg, app_length, starts_length; cbn; lia).
    assert (Ng : forall k, k <= length gl -> nth k g 0 = sum_list (firstn k gl)) by (intros k Hk; rewrite Eg, starts_nth; auto).
    assert (Hpn : forall k, k < length gl -> 0 < nth k gl 0) by (intros k Hk; apply Hpos, nth_In; auto).
    assert (Hlast : last g 0 = length sizes) by (rewrite Eg, last_last; cbn; lia).
    unfold new_block_shape. rewrite Hlast. change (rbind (rfold (nbs_step g sizes) (seq 0 (length sizes)) (0, 1, repeat 1 (length gl))) (fun st => Ok (snd st)) = Ok (map prod_list (unpack gl sizes))).
    assert (H : forall K, 1 <= K <= length gl -> exists out, rfold (nbs_step g sizes) (seq 0 (sum_list (firstn K gl))) (0, 1, repeat 1 (length gl))
       = Ok (K - 1, K, out) /\ length out = length gl /\
       forall k, k < length gl -> nth k out 0 = if k <? K then prod_list (nth k (unpack gl sizes) []) else 1).
    { induction K as [|K IH]; intros HK; [lia|]. pose proof (sum_firstn_S gl (k := K) ltac:(lia)) as ES. pose proof (Hpn K ltac:(lia)) as Hp.
      pose proof (sum_firstn_le gl (S K)) as HLe.
      destruct (Nat.eq_dec K 0) as [->|HK0].
      - assert (ES0 : sum_list (firstn 1 gl) = nth 0 gl 0) by (rewrite ES; reflexivity). rewrite ES0.
        rewrite nbs_inner; rewrite ?repeat_length; try lia.
        2: { rewrite Ng by lia. rewrite ES0. lia. }
        eexists. split; [reflexivity|]. split; [rewrite upd_len; rewrite repeat_length; auto; lia|]. intros k Hk.
        rewrite upd_nth by (rewrite repeat_length; lia). rewrite !nth_repeat_lt by lia.
        destruct (Nat.eqb_spec k 0) as [->|Hk0].
        + rewrite unpack_nth by lia. rewrite ES0. change (sum_list (firstn 0 gl)) with 0. change (0 <? 1) with true. cbn [Nat.add]. cbv iota. apply Nat.mul_1_l.
        + destruct (Nat.ltb_spec k 1); [lia|reflexivity].
      - destruct IH as (out & IH1 & IH2 & IH3); [lia|]. rewrite ES, seq_app, rfold_app, IH1. cbn [rbind Nat.add].
        set (a := sum_list (firstn K gl)) in *. destruct (nth K gl 0) as [|m] eqn:EN; [lia|]. cbn [seq rfold]. unfold nbs_step at 1.
        rewrite (rnth_Ok 0) by lia. cbn [rbind]. rewrite Ng by lia. fold a. rewrite Nat.leb_refl. rewrite (rnth_Ok 0) by lia. cbn [rbind].
        rewrite (rnth_Ok 0) by lia. cbn [rbind]. rewrite nbs_inner; rewrite ?upd_len; try lia.
        2: { rewrite Ng by lia. lia. }
        eexists. split; [f_equal; f_equal; f_equal; lia|]. split; [rewrite !upd_len; rewrite ?upd_len; lia|]. intros k Hk.
        rewrite upd_nth by (rewrite upd_len; lia). rewrite !upd_nth by lia. replace (S (K - 1)) with K by lia. rewrite Nat.eqb_refl.
        rewrite IH3 by lia. replace (K <? K) with false by (symmetry; apply Nat.ltb_ge; lia).
        destruct (Nat.eqb_spec k K) as [->|HkK].
        + replace (K <? S K) with true by (symmetry; apply Nat.ltb_lt; lia). rewrite unpack_nth by lia. fold a. rewrite ES.
          rewrite Nat.mul_1_l. rewrite <- prod_list_cons. f_equal. unfold seg.
          replace (a + S m - a) with (S m) by lia. replace (S a + m - S a) with m by lia.
          assert (skipn a sizes = nth a sizes 0 :: skipn (S a) sizes) as ->; [|reflexivity].
          assert (Ha : a < length sizes) by lia. clear - Ha. revert Ha. generalize a. clear a. induction sizes as [|z l IH]; intros [|x] H; cbn in H; try lia; [reflexivity|].
          cbn [skipn nth]. rewrite IH by lia. reflexivity.
        + rewrite IH3 by lia. destruct (Nat.ltb_spec k K), (Nat.ltb_spec k (S K)); auto; lia. }
    assert (HG : 1 <= length gl) by (destruct gl; [congruence|cbn; lia]).
    destruct (H (length gl) ltac:(lia)) as (out & H1 & H2 & H3). rewrite firstn_all, Hsum in H1. rewrite H1. cbn [rbind snd]. f_equal.
    apply (nth_ext' 0); [rewrite map_length, unpack_length; auto|]. rewrite H2. intros k Hk. rewrite H3 by auto.
    rewrite (proj2 (Nat.ltb_lt _ _) Hk). change 0 with (prod_list [] - 1). rewrite nth_indep with (d' := prod_list []) by (rewrite map_length, unpack_length; auto).
    rewrite map_nth. reflexivity.
  Qed.
End P.
