(** Final forms of the statements of Prop_BTensor.v, and the counterexamples. *)
From Verif Require Import Base Quantity QuantityProofs FlatMap SpecFlatMap FlatMapProofs Ring Index SpecIndex IndexProofs
  Dense BTensor SpecBTensor LegsProofs BTensorProofs BTensorThms BTensorEx SelRule SelRuleProofs.
From Coq Require Import Permutation Sorted.
Set Implicit Arguments.

Section F.
  Variable G : abgroup.
  Variable R : ring.
  Implicit Types T : btensor G R.
  Notation KO := key_order_idx.

  Lemma allowedb_iff T k : (in_range (b_sbd T) k && allowedb T k)%bool = true <-> allowed T k.
  Proof. rewrite andb_true_iff. symmetry. apply allowed_spec. Qed.

  Lemma to_dense_total T : valid T -> exists D, to_dense T = Ok D /\ dense_form T D /\
    forall i, in_range (dsh D) i = true -> exists b o, in_range (b_sbd T) b = true /\ in_range (pick 0 (legs T) b) o = true /\
      place (legs T) b o = i.
  Proof.
    intros HV. destruct (to_dense_spec HV) as [D [E HD]]. exists D. split; auto. split; auto. intros i Hi.
    rewrite (proj1 HD) in Hi. destruct (unplace_spec _ _ Hi) as [U1 [U2 U3]]. rewrite (legs_lens (proj1 HV)) in U1. eauto.
  Qed.

  Lemma full_exact T (f : list nat -> list nat -> dense R) : meta_ok T -> (forall n, In n (b_sbd T) -> 0 < n) -> (forall k sh, dsh (f k sh) = sh) ->
    exists out, factory_wrap (sparse_zeros_like T) f = Ok out /\ same_meta T out /\ valid out /\
    (forall k t, assoc leqb k (b_blocks out) = Some t <-> allowed T k /\ t = f k (pick 0 (legs T) k)).
  Proof.
    intros HM Hp Hf. destruct (@factory_spec G R (sparse_zeros_like T) f) as [out [E [M [V A]]]]; auto.
    { apply prod_pos. auto. }
    exists out. split; auto. split; auto. split; auto. intros k t. rewrite A.
    change (allowedb (sparse_zeros_like T) k) with (allowedb T k). change (b_sbd (sparse_zeros_like T)) with (b_sbd T).
    change (legs (sparse_zeros_like T)) with (legs T).
    rewrite <- allowedb_iff. destruct (_ && _)%bool; split; try discriminate.
    - intros [= <-]. auto.
    - intros [_ ->]. auto.
    - intros [H _]. discriminate.
  Qed.

  Lemma from_basic_exact T values signif : meta_ok T -> (forall n, In n (b_sbd T) -> 0 < n) -> dsh values = map sum_list (legs T) ->
    exists out, from_basic T values signif = Ok out /\ same_meta T out /\ valid out /\
    forall b o, in_range (b_sbd T) b = true -> in_range (pick 0 (legs T) b) o = true ->
      (allowed T b /\ signif (d_slice (origin (legs T) b) (pick 0 (legs T) b) values) = true ->
         bentry out b o = dv values (place (legs T) b o)) /\
      (~ allowed T b \/ signif (d_slice (origin (legs T) b) (pick 0 (legs T) b) values) = false -> bentry out b o = rz).
  Proof.
    intros HM Hp Hs. destruct (@from_basic_dense G R T values signif HM (prod_pos _ Hp) Hs) as [out [E [M [V A]]]].
    exists out. split; auto. split; auto. split; auto. intros b o Hb Ho. rewrite A by auto. split.
    - intros [H1 H2]. apply allowed_spec in H1 as [_ H1]. rewrite H1, H2. reflexivity.
    - intros [H|H]; [|rewrite H, andb_false_r; reflexivity]. destruct (allowedb T b) eqn:E1; auto.
      exfalso. apply H. apply allowed_spec. auto.
  Qed.
  Lemma round_trip_pos T D signif : valid T -> (forall n, In n (b_sbd T) -> 0 < n) -> dense_form T D -> cutoff0 signif ->
    exists out D', from_basic (sparse_zeros_like T) D signif = Ok out /\ same_meta T out /\ valid out /\ to_dense out = Ok D' /\ deq D' D.
  Proof. intros; eapply round_trip; eauto. apply prod_pos. auto. Qed.

  (** eye_like *)
  Lemma eye_spec T : meta_ok T -> b_rank T = 2 ->
    exists out, eye_like T = Ok out /\ same_meta T out /\ valid out /\
    forall k t, assoc leqb k (b_blocks out) = Some t <->
      exists i, k = [i; i] /\ allowed T k /\ t = d_eye (nth 0 (pick 0 (legs T) k) 0) (nth 1 (pick 0 (legs T) k) 0).
  Proof.
    intros HM HR. pose proof HM as [H1 [H2 H3]]. destruct (b_sbd T) as [|n0 [|n1 [|]]] eqn:ES; cbn in H1; try lia.
    pose (val := fun k => @d_eye R (nth 0 (pick 0 (legs T) k) 0) (nth 1 (pick 0 (legs T) k) 0)).
    pose (v := map (fun i => [i; i]) (seq 0 (Nat.min n0 n1))).
    destruct (@fill_spec R (allowedb T) val v []) as [F1 F2]; [constructor|].
    set (l := fold_left _ v []) in *.
    assert (Hv : forall i, i < Nat.min n0 n1 -> in_range (b_sbd T) [i; i] = true).
    { intros i Hi. rewrite ES. cbn. rewrite !(proj2 (Nat.ltb_lt _ _)) by lia. reflexivity. }
    assert (Hlen : forall k, in_range (b_sbd T) k = true -> length (pick 0 (legs T) k) = 2).
    { intros k Hk. apply in_range_length in Hk. rewrite ES in Hk. rewrite pick_length; rewrite legs_length by auto; auto. rewrite HR. exact Hk. }
    assert (HA : forall k t, assoc leqb k l = Some t <-> exists i, k = [i; i] /\ allowed T k /\ t = val k).
    { intros k t. rewrite F2. cbn [assoc]. destruct (existsb (leqb k) v && allowedb T k)%bool eqn:E.
      - apply andb_true_iff in E as [E1 E2]. apply existsb_leqb in E1. apply in_map_iff in E1 as [i [<- Hi]]. apply in_seq in Hi.
        split.
        + intros [= <-]. exists i. split; auto. split; auto. apply allowed_spec. split; auto. apply Hv; lia.
        + intros [_ [_ [_ ->]]]. reflexivity.
      - split; [discriminate|]. intros [i [-> [Ha _]]]. exfalso. apply allowed_spec in Ha as [Ha Hb]. rewrite Hb, andb_true_r in E.
        assert (In [i; i] v); [|apply existsb_leqb in H; congruence]. apply in_map_iff. exists i. split; auto. apply in_seq.
        rewrite ES in Ha. cbn in Ha. lia. }
    exists (with_blocks T l). split; [|split; [apply same_meta_with|split; [|exact HA]]].
    - unfold eye_like. rewrite HR, Nat.eqb_refl, ES. cbn [negb rnth nth_error rbind].
      transitivity (rfold (fun out idx =>
        do ok <- block_conservation_rule_test out idx ;
        if ok then
          do sh <- block_sizes out idx ;
          Ok (with_blocks out (fm_subscript_assign lexb (undefined_tensor R) (b_blocks out) idx (d_eye (nth 0 sh 0) (nth 1 sh 0))))
        else Ok out) v (with_blocks T [])).
      { unfold v. generalize (seq 0 (Nat.min n0 n1)). intros m. change (sparse_zeros_like T) with (with_blocks T []).
        generalize (with_blocks T []). induction m as [|i m IH]; intros X; cbn [map rfold]; auto.
        destruct (block_conservation_rule_test X [i; i]) as [[]| |]; cbn [rbind]; auto.
        destruct (block_sizes X [i; i]); cbn [rbind]; auto. }
      apply rfold_with_blocks. intros l0 idx Hi. apply in_map_iff in Hi as [i [<- Hi]]. apply in_seq in Hi.
      change (block_conservation_rule_test (with_blocks T l0) [i; i]) with (block_conservation_rule_test T [i; i]).
      rewrite rule_test_spec by (auto; apply Hv; lia). cbn [rbind]. destruct (allowedb T [i; i]); auto.
      change (block_sizes (with_blocks T l0) [i; i]) with (block_sizes T [i; i]).
      rewrite block_sizes_spec by (auto; apply Hv; lia). reflexivity.
    - split; [exact HM|]. split; [|exact F1]. apply blocks_ok_assoc; [exact F1|]. intros k t Ht. apply HA in Ht as [i [-> [Ha ->]]].
      split; auto. unfold val. specialize (Hlen [i; i] (proj1 Ha)).
      change (legs (with_blocks T l)) with (legs T). destruct (pick 0 (legs T) [i; i]) as [|x [|y [|]]]; try discriminate. reflexivity.
  Qed.

  Lemma block_get_spec T idx : valid T -> in_range (b_sbd T) idx = true ->
    (allowed T idx -> exists T' p, block T idx = Ok (T', p) /\ same_meta T T' /\ sorted lexb (b_blocks T') /\
       nth_error (b_blocks T') p = Some (idx, match assoc leqb idx (b_blocks T) with Some t => t | None => undefined_tensor R end) /\
       (forall k, k <> idx -> assoc leqb k (b_blocks T') = assoc leqb k (b_blocks T)) /\
       (assoc leqb idx (b_blocks T) <> None -> b_blocks T' = b_blocks T /\ valid T')) /\
    (~ allowed T idx -> block T idx = Throw InvalidArgument).
  Proof.
    intros HV Hr. destruct (block_spec idx HV Hr) as [A B]. split; auto. intros HA.
    destruct (A HA) as [T' [p [E [M [S [N O]]]]]]. exists T', p. split; auto. split; auto. split; auto. split; auto. split; auto.
    intros Hne. destruct (assoc leqb idx (b_blocks T)) as [t|] eqn:Et; [|congruence].
    assert (Eb : b_blocks T' = b_blocks T).
    { apply (sorted_ext KO); auto; [apply HV|]. intros k. destruct (leqb k idx) eqn:Ek.
      - apply leqb_eq in Ek. subst k. rewrite Et. apply (In_assoc KO); auto. eapply nth_error_In; eauto.
      - apply O. apply leqb_neq. auto. }
    split; auto. destruct T' as [r n s z c b]. destruct M as [M1 [M2 [M3 [M4 M5]]]]. cbn in *. subst. destruct T; exact HV.
  Qed.
  (** An absent allowed block comes back with the shape of the undefined tensor, so the tensor is no longer valid. *)
  Lemma block_absent_invalid T idx T' p : valid T -> allowed T idx -> assoc leqb idx (b_blocks T) = None ->
    pick 0 (legs T) idx <> [0] -> block T idx = Ok (T', p) -> ~ valid T'.
  Proof.
    intros HV HA Hn Hsh E HV'. destruct (block_spec idx HV (proj1 HA)) as [A _].
    destruct (A HA) as [T2 [p2 [E2 [M [_ [N _]]]]]]. rewrite E in E2. injection E2 as <- <-. rewrite Hn in N.
    apply nth_error_In in N. destruct HV' as [_ [HB _]]. destruct (HB _ _ N) as [_ H].
    destruct M as [_ [_ [M3 [M4 _]]]]. unfold legs in *. rewrite <- M3, <- M4 in H. cbn in H. congruence.
  Qed.
  Lemma rule_edits T q0 :
    (b_blocks T = [] ->
       (exists T', set_selection_rule_ T q0 = Ok T' /\ b_rule T' = q0 /\ same_meta (with_rule T q0) T' /\ b_blocks T' = [] /\ (valid T -> valid T')) /\
       (exists T', shift_selection_rule_ T q0 = Ok T' /\ b_rule T' = qop G (b_rule T) q0 /\
          same_meta (with_rule T (qop G (b_rule T) q0)) T' /\ b_blocks T' = [] /\ (valid T -> valid T'))) /\
    (b_blocks T <> [] -> set_selection_rule_ T q0 = Throw LogicError /\ shift_selection_rule_ T q0 = Throw LogicError).
  Proof.
    assert (HW : forall q1, b_blocks T = [] -> valid T -> valid (with_rule T q1)).
    { intros q1 E [HM [_ _]]. split; [exact HM|]. split; cbn; rewrite ?E; [intros i t; cbn; rewrite E; intros []|constructor]. }
    unfold set_selection_rule_, shift_selection_rule_, is_empty. split; intros E.
    - rewrite E. split; eexists; (split; [reflexivity|]; split; [reflexivity|]; split; [repeat split|]; split; [exact E|]; auto).
    - destruct (b_blocks T); [congruence|]. auto.
  Qed.

  Lemma any_single (truth : R -> bool) T k t : valid T -> b_blocks T = [(k, t)] ->
    any truth T = Some true <-> exists b o, in_range (b_sbd T) b = true /\ in_range (pick 0 (legs T) b) o = true /\
       assoc leqb b (b_blocks T) <> None /\ truth (bentry T b o) = true.
  Proof.
    intros HV E. rewrite any_first, E. destruct (proj1 (proj2 HV) k t) as [[Hk _] Hs]; [rewrite E; left; auto|].
    assert (Ht : forall t', Some (d_any truth t') = Some true <-> d_any truth t' = true) by (intros; split; congruence).
    rewrite Ht. unfold d_any. rewrite existsb_exists, Hs. split.
    - intros [o [Ho Hb]]. exists k, o. apply idxs_In in Ho. split; auto. split; auto. unfold bentry. rewrite E. cbn. rewrite leqb_refl.
      split; [discriminate|auto].
    - intros [b [o [Hb [Ho [Hn Htr]]]]]. unfold bentry in Htr. rewrite E in *. cbn in *. destruct (leqb k b) eqn:Ek; [|congruence].
      apply leqb_eq in Ek. subst b. exists o. split; auto. apply idxs_In. auto.
  Qed.

  Lemma allowed_list_filter T : allowed_list T (filter (allowedb T) (idxs (b_sbd T))).
  Proof.
    split; [apply NoDup_filter; apply idxs_NoDup|]. intros k. rewrite filter_In, idxs_In. symmetry. apply allowed_spec.
  Qed.
  Lemma allowed_list_length T l l' : allowed_list T l -> allowed_list T l' -> length l = length l'.
  Proof. intros [A B] [C D]. apply Permutation_length. apply NoDup_Permutation; auto. intros k. rewrite B, D. tauto. Qed.
  Lemma max_size_count T max l : meta_ok T -> 0 < b_rank T -> (forall n, In n (b_sbd T) -> 0 < n) -> prod_list (b_sbd T) <= max ->
    allowed_list T l -> compute_max_size T max = Ok (length l).
  Proof.
    intros HM Hr Hp Hm Hl. rewrite max_size_spec by (auto; apply prod_pos; auto). f_equal. apply (allowed_list_length (allowed_list_filter T) Hl).
  Qed.
  Lemma guess_count T l : meta_ok T -> (forall n, In n (b_sbd T) -> 0 < n) -> allowed_list T l ->
    tensor_list_size_guess T = Ok (Nat.min 50 (length l)).
  Proof.
    intros HM Hp Hl. rewrite guess_spec by (auto; apply prod_pos; auto). do 2 f_equal. apply (allowed_list_length (allowed_list_filter T) Hl).
  Qed.
End F.

(** * Counterexamples *)
Lemma check_refuted :
  (exists T : zt, check_tensor T = Ok true /\ ~ meta_ok T) /\ (exists T : zt, meta_ok T /\ check_tensor T = UB).
Proof.
  split.
  - exists (zB (q 0) 1 [1] [2] [q 0; q 1] []). split; [reflexivity|]. intros [_ [_ H]]. discriminate.
  - exists (zB (q 0) 1 [1] [2] [q 0] [([1], dl [2] [1; 2]%Z)]). split; [repeat split|reflexivity].
Qed.
Lemma block_refuted :
  (exists (T T' : zt) idx p, valid T /\ block T idx = Ok (T', p) /\ in_range (b_sbd T) idx = false /\ ~ valid T') /\
  (exists (T T' : zt) idx p, valid T /\ allowed T idx /\ block T idx = Ok (T', p) /\ ~ valid T').
Proof.
  split.
  - exists (zB (q 0) 2 [1; 2] [2; 1; 1] [q 0; q 0; q 1] []), (zB (q 0) 2 [1; 2] [2; 1; 1] [q 0; q 0; q 1] [([1; 0], undefined_tensor ring_Z)]), [1; 0], 0.
    split; [ex_valid|]. split; [reflexivity|]. split; [reflexivity|]. intros [_ [HB _]].
    destruct (HB _ _ (or_introl eq_refl)) as [[H _] _]. discriminate.
  - exists exB. destruct (@block_spec z_group ring_Z exB [0; 0] exB_valid eq_refl) as [A _].
    assert (HA : allowed exB [0; 0]) by (split; [reflexivity|apply qeqb_spec; reflexivity]).
    destruct (A HA) as [T' [p [E _]]]. exists T', [0; 0], p. split; [apply exB_valid|]. split; auto. split; auto.
    eapply (@block_absent_invalid z_group ring_Z exB [0; 0] T' p exB_valid HA); [reflexivity|discriminate|exact E].
Qed.
Lemma factory_refuted : exists T out : zt, valid T /\ full_like T 1%Z = Ok out /\ ~ valid out.
Proof.
  exists (zB (q 0) 2 [0; 1] [1] [q 0] []), (zB (q 0) 2 [0; 1] [1] [q 0] [([0; 0], d_full [1; 1] (1%Z : ring_Z))]).
  split; [ex_valid|]. split; [reflexivity|]. intros [_ [HB _]].
  destruct (HB [0; 0] _ (or_introl eq_refl)) as [[H _] _]. discriminate.
Qed.
Lemma from_basic_refuted : exists (T : zt) D, valid T /\ dense_form T D /\ from_basic T D (fun _ => true) = Throw InvalidArgument.
Proof.
  pose (T := zB (q 0) 2 [0; 1] [1] [q 0] []).
  exists T, (dl [0; 1] []). split; [ex_valid|]. split; [|reflexivity]. split; [reflexivity|].
  intros [|b0 [|b1 [|]]] o Hb; discriminate.
Qed.
Lemma add_check_refuted : exists a b : zt, valid a /\ valid b /\ add_tensor_check a b = Ok tt /\ b_rank a <> b_rank b /\ sizes a <> sizes b.
Proof.
  exists (zB (q 0) 1 [2] [1; 2] [q 0; q 0] []), (zB (q 0) 2 [1; 1] [1; 2] [q 0; q 0] []).
  split; [ex_valid|]. split; [ex_valid|]. split; [reflexivity|]. split; [discriminate|discriminate].
Qed.
Lemma cval_shift_refuted : exists T T' : zt, valid T /\ cval_shift_ T (q 1) 0 = Ok T' /\ ~ valid T'.
Proof.
  destruct (cval_shift_ exA (q 1) 0) as [T'| |] eqn:E; [|discriminate|discriminate].
  exists exA, T'. split; [apply exA_valid|]. split; auto. intros HV.
  destruct (@cval_shift_valid_iff z_group ring_Z exA (q 1) 0 T' exA_valid) as [_ H]; auto; [discriminate|].
  apply H in HV. apply (f_equal (fun x : z_group => proj1_sig x)) in HV. vm_compute in HV. discriminate.
Qed.
(** [rtol = 1, atol = 0]: |x - y| <= |y|. *)
Definition close_rel (x y : ring_Z) : bool := (Z.abs (x - y) <=? Z.abs y)%Z.
Lemma allclose_refuted : exists (a b : zt) Da Db, valid a /\ valid b /\ same_meta a b /\ dense_form a Da /\ dense_form b Db /\
  allclose close_rel a b = false /\ forall i, in_range (dsh Da) i = true -> close_rel (dv Da i) (dv Db i) = true.
Proof.
  exists exB, exA.
  destruct (to_dense_spec exB_valid) as [Da [Ea HDa]]. destruct (to_dense_spec exA_valid) as [Db [Eb HDb]].
  exists Da, Db. split; [apply exB_valid|]. split; [apply exA_valid|]. split; [repeat split|].
  split; auto. split; auto.
  split; [reflexivity|].
  assert (Hall : rmap (fun Da => rmap (fun Db => forallb (fun i => close_rel (dv Da i) (dv Db i)) (idxs (dsh Da))) (to_dense exA)) (to_dense exB) = Ok (Ok true)) by (vm_compute; reflexivity).
  rewrite Ea, Eb in Hall. cbn [rmap] in Hall. injection Hall as Hall. rewrite forallb_forall in Hall.
  intros i Hi. apply Hall. apply idxs_In. auto.
Qed.
Lemma any_refuted : exists (T : zt), valid T /\ any (fun z : ring_Z => negb (z =? 0)%Z) T = Some false /\
  exists b o, in_range (b_sbd T) b = true /\ in_range (pick 0 (legs T) b) o = true /\ bentry T b o = 1%Z.
Proof.
  exists (with_blocks exA [([0; 0], dl [1; 2] [0; 0]%Z); ([1; 1], dl [2; 1] [0; 1]%Z)]).
  split; [ex_valid|]. split; [reflexivity|]. exists [1; 1], [1; 0]. repeat split.
Qed.
Lemma max_size_refuted : exists (T : zt) l, valid T /\ allowed_list T l /\ compute_max_size T 1 <> Ok (Nat.min (length l) 1).
Proof.
  pose (T := zB (q 0) 2 [2; 2] [1; 1; 1; 1] [q 0; q 1; q (-1); q 0] [] : zt).
  exists T, (filter (allowedb T) (idxs (b_sbd T))). split; [ex_valid|]. split; [apply allowed_list_filter|]. vm_compute. discriminate.
Qed.
Lemma sum_refuted : exists T : zt, valid T /\ ~ valid (bt_sum T).
Proof.
  pose (T := zB (q 1) 1 [1] [2] [q 1] [([0], dl [2] [1; 2]%Z)] : zt).
  exists T. assert (HV : valid T) by ex_valid. split; auto. intros H.
  destruct (to_dense_spec HV) as [D [_ HD]]. apply (proj2 (sum_spec HV HD)) in H.
  apply (f_equal (fun x : z_group => proj1_sig x)) in H. vm_compute in H. discriminate.
Qed.
