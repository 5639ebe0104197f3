From Verif Require Import Base Quantity QuantityProofs FlatMap SpecFlatMap FlatMapProofs FlatMapThms Ring Index SpecIndex IndexProofs
  Dense BTensor SpecBTensor LegsProofs BTensorProofs BTensorThms BTensorThms2 BTensorArith.
From Coq Require Import Permutation Sorted.
Set Implicit Arguments.

Section P.
  Variable G : abgroup.
  Variable R : ring.
  Add Ring Rr : (ring_th R).
  Implicit Types T : btensor G R.
  Notation KO := key_order_idx.

  Lemma valid_same_blocks T l : meta_ok T -> sorted lexb l ->
    (forall b t, assoc leqb b l = Some t -> allowed T b /\ dsh t = pick 0 (legs T) b) -> valid (with_blocks T l).
  Proof. intros HM HS H. split; [exact HM|]. split; [|exact HS]. apply blocks_ok_assoc; auto. Qed.

  Lemma same_meta_legs (a b : btensor G R) : same_meta a b -> legs b = legs a /\ qlegs b = qlegs a /\ b_sbd b = b_sbd a.
  Proof. intros [M1 [M2 [M3 [M4 M5]]]]. unfold legs, qlegs. rewrite M3, M4, M5. auto. Qed.
  Lemma same_meta_allowed (a b : btensor G R) k : same_meta a b -> allowed b k <-> allowed a k.
  Proof. intros M. destruct (same_meta_legs M) as [E1 [E2 E3]]. destruct M as [M1 _]. unfold allowed. rewrite E2, E3, M1. tauto. Qed.

  (** Exact value of the scaled sum. *)
  Definition leading (b : btensor G R) (k : list nat) : bool := forallb (fun y => lexb k (fst y)) (b_blocks b).
  Lemma add_exact (a b : btensor G R) alpha : valid a -> valid b -> same_meta a b ->
    exists out, bt_add a b alpha = Ok out /\ same_meta a out /\ valid out /\
    (forall k, assoc leqb k (b_blocks out) = None <-> assoc leqb k (b_blocks a) = None /\ assoc leqb k (b_blocks b) = None) /\
    forall k o, bentry out k o =
      if match assoc leqb k (b_blocks b) with None => leading b k | Some _ => false end
      then rmul (bentry a k o) alpha
      else radd (bentry a k o) (rmul alpha (bentry b k o)).
  Proof.
    intros Va Vb M. pose proof Va as [HMa [HBa HSa]]. pose proof Vb as [HMb [HBb HSb]].
    destruct (merge_exact KO (d_axpy alpha) (d_scale alpha) HSa HSb) as [l [El [Sl Al]]].
    exists (with_blocks a l). split; [|split; [apply same_meta_with|split; [|split]]].
    - unfold bt_add. rewrite (proj2 (add_check_same HMa HMb (proj1 (proj2 (proj2 M)))) M). cbn [rbind]. rewrite El. reflexivity.
    - apply valid_same_blocks; auto. intros k t. rewrite Al.
      destruct (assoc leqb k (b_blocks a)) as [ta|] eqn:Ea; destruct (assoc leqb k (b_blocks b)) as [tb|] eqn:Eb; try discriminate.
      + intros [= <-]. apply (valid_assoc _ Va Ea).
      + intros [= <-]. destruct (forallb _ _); apply (valid_assoc _ Va Ea).
      + intros [= <-]. destruct (valid_assoc _ Vb Eb) as [H1 H2]. apply (same_meta_allowed k M) in H1. split; auto.
        cbn. rewrite H2. destruct (same_meta_legs M) as [-> _]. reflexivity.
    - intros k. cbn [with_blocks b_blocks]. rewrite Al.
      destruct (assoc leqb k (b_blocks a)); destruct (assoc leqb k (b_blocks b)); split; try discriminate; try tauto; intros []; discriminate.
    - intros k o. unfold bentry. cbn [with_blocks b_blocks]. rewrite Al. unfold leading.
      destruct (assoc leqb k (b_blocks a)); destruct (assoc leqb k (b_blocks b)); cbn; auto.
      + destruct (forallb _ _); cbn; auto. ring.
      + ring.
      + destruct (forallb _ _); ring.
  Qed.

  Lemma dense_add_entries (a b out : btensor G R) (f : R -> R -> R) Da Db : same_meta a b -> same_meta a out ->
    dense_form a Da -> dense_form b Db ->
    (forall k o, in_range (b_sbd a) k = true -> bentry out k o = f (bentry a k o) (bentry b k o)) ->
    dense_form out (d_zip f Da Db).
  Proof.
    intros M Mo [A1 A2] [B1 B2] H. destruct (same_meta_legs M) as [E1 [E2 E3]]. destruct (same_meta_legs Mo) as [F1 [F2 F3]].
    split; [cbn; rewrite A1, F1; auto|]. intros k o Hk Ho. rewrite F3 in Hk. rewrite F1 in *. cbn [d_zip dv].
    rewrite A2 by auto. rewrite E1, E3 in B2. rewrite B2 by auto. symmetry. apply H. auto.
  Qed.

  Lemma add_dense (a b : btensor G R) Da Db : valid a -> valid b -> same_meta a b -> dense_form a Da -> dense_form b Db ->
    exists out, bt_add a b ro = Ok out /\ same_meta a out /\ valid out /\ dense_form out (d_zip radd Da Db).
  Proof.
    intros Va Vb M HDa HDb. destruct (add_exact ro Va Vb M) as [out [E [Mo [Vo [_ H]]]]].
    exists out. split; auto. split; auto. split; auto. apply (dense_add_entries radd M Mo HDa HDb).
    intros k o Hk. rewrite H. unfold bentry. destruct (assoc leqb k (b_blocks b)); [ring|]. destruct (leading b k); ring.
  Qed.
  Lemma axpy_dense (a b : btensor G R) alpha Da Db : valid a -> valid b -> same_meta a b -> dense_form a Da -> dense_form b Db ->
    (forall k t, In (k, t) (b_blocks a) -> exists k' t', In (k', t') (b_blocks b) /\ lexb k k' = false) ->
    exists out, bt_add a b alpha = Ok out /\ same_meta a out /\ valid out /\
      dense_form out (d_zip (fun x y => radd x (rmul alpha y)) Da Db).
  Proof.
    intros Va Vb M HDa HDb Hlead. destruct (add_exact alpha Va Vb M) as [out [E [Mo [Vo [_ H]]]]].
    exists out. split; auto. split; auto. split; auto. apply (dense_add_entries (fun x y => radd x (rmul alpha y)) M Mo HDa HDb).
    intros k o Hk. rewrite H. unfold bentry. destruct (assoc leqb k (b_blocks b)) eqn:Eb; auto.
    destruct (assoc leqb k (b_blocks a)) as [t|] eqn:Ea; [|destruct (leading b k); ring].
    apply (assoc_In KO) in Ea. destruct (Hlead _ _ Ea) as [k' [t' [H1 H2]]].
    assert (leading b k = false) as ->; auto. unfold leading. apply not_true_iff_false. rewrite forallb_forall. intros HF.
    specialize (HF _ H1). cbn in HF. congruence.
  Qed.
  Lemma add_rvalue_UB (a b : btensor G R) alpha : valid a -> valid b -> same_meta a b ->
    (bt_add_rvalue a b alpha = UB <-> b_blocks a = [] /\ b_blocks b = []).
  Proof.
    intros Va Vb M. destruct (add_exact alpha Va Vb M) as [out [E [Mo [Vo [HN _]]]]].
    assert (HE : forall l : list (list nat * dense R), l = [] <-> forall k, assoc leqb k l = None).
    { intros [|[k t] l]; split; auto; try discriminate. intros H. specialize (H k). cbn in H. rewrite leqb_refl in H. discriminate. }
    unfold bt_add_rvalue. rewrite E. cbn [rbind].
    assert (b_blocks out = [] <-> b_blocks a = [] /\ b_blocks b = []) as HO.
    { rewrite !HE. split; [intros H; split; intros k; apply HN; auto|intros [H1 H2] k; apply HN; auto]. }
    destruct (b_blocks out); [|split; [discriminate|intros H; apply HO in H; discriminate]]. tauto.
  Qed.

  (** Adding a constant changes the elements of the allowed blocks only. *)
  Lemma add_scalar_entry T c alpha : valid T -> (forall n, In n (b_sbd T) -> 0 < n) ->
    exists out out', bt_add_scalar T c alpha = Ok out /\ bt_add_scalar_ T c alpha = Ok out' /\ same_meta T out /\ same_meta T out' /\ valid out /\ valid out' /\
    forall b o, in_range (b_sbd T) b = true -> in_range (pick 0 (legs T) b) o = true ->
      (allowed T b -> bentry out b o = radd (bentry T b o) (rmul c alpha) /\ bentry out' b o = radd (bentry T b o) (rmul c alpha)) /\
      (~ allowed T b -> bentry out b o = rz /\ bentry out' b o = rz).
  Proof.
    intros HV Hp. destruct (@full_exact G R T (fun _ sh => d_full sh (rmul c alpha)) (proj1 HV) Hp ltac:(reflexivity)) as [f [E [M [Vf A]]]].
    assert (Ms : same_meta f T) by (destruct M as [? [? [? [? ?]]]]; repeat split; auto).
    destruct (add_exact ro Vf HV Ms) as [out [E1 [M1 [V1 [N1 H1]]]]].
    destruct (add_exact ro HV Vf M) as [out' [E2 [M2 [V2 [N2 H2]]]]].
    exists out, out'. unfold bt_add_scalar, bt_add_scalar_, full_like. rewrite E. cbn [rbind].
    split; auto. split; auto. split; [destruct Ms as [? [? [? [? ?]]]], M1 as [? [? [? [? ?]]]]; repeat split; congruence|].
    split; auto. split; auto. split; auto. intros b o Hb Ho.
    assert (HD : ~ allowed T b -> bentry T b o = rz) by (apply bentry_disallowed; auto).
    assert (HF : forall x, bentry f b o = x -> bentry out b o = radd x (bentry T b o) /\ bentry out' b o = radd (bentry T b o) x).
    { intros x <-. rewrite H1, H2. split.
      - destruct (match assoc leqb b (b_blocks T) with None => leading T b | Some _ => false end) eqn:E3; [|ring].
        assert (bentry T b o = rz) as ->; [|ring]. unfold bentry. destruct (assoc leqb b (b_blocks T)); [discriminate|auto].
      - destruct (match assoc leqb b (b_blocks f) with None => leading f b | Some _ => false end) eqn:E3; [|ring].
        assert (bentry f b o = rz) as ->; [|ring]. unfold bentry. destruct (assoc leqb b (b_blocks f)); [discriminate|auto]. }
    split.
    - intros Ha. destruct (HF (rmul c alpha)) as [X Y].
      + unfold bentry. rewrite (proj2 (A b (d_full (pick 0 (legs T) b) (rmul c alpha)))) by auto. reflexivity.
      + rewrite X, Y. split; ring.
    - intros Hn. destruct (HF rz) as [X Y].
      + unfold bentry. destruct (assoc leqb b (b_blocks f)) eqn:E3; auto. apply A in E3. tauto.
      + rewrite X, Y, HD by auto. split; ring.
  Qed.
  Lemma mul_scalar_dense T c D : valid T -> dense_form T D ->
    valid (bt_mul_scalar T c) /\ dense_form (bt_mul_scalar T c) (d_map (fun x => rmul x c) D).
  Proof. intros HV HD. split; [apply map_blocks_valid; auto|apply map_blocks_dense; auto; ring]. Qed.
  Lemma elementwise_valid f T : valid T -> valid (bt_elementwise f T) /\ same_meta T (bt_elementwise f T).
  Proof. intros HV. split; [apply map_blocks_valid; auto|repeat split]. Qed.
  (** The dense form is the mapped dense form exactly when no missing element should become non-zero. *)
  Lemma elementwise_iff f T D : valid T -> dense_form T D ->
    (dense_form (bt_elementwise f T) (d_map f D) <->
     f rz = rz \/ forall b o, in_range (b_sbd T) b = true -> in_range (pick 0 (legs T) b) o = true -> assoc leqb b (b_blocks T) <> None).
  Proof.
    intros HV [H1 H2].
    assert (HE : forall b o, bentry (bt_elementwise f T) b o = match assoc leqb b (b_blocks T) with Some t => f (dv t o) | None => rz end).
    { intros b o. unfold bentry, bt_elementwise. cbn [map_blocks with_blocks b_blocks]. rewrite assoc_map_val. destruct (assoc _ _ _); auto. }
    split.
    - intros [_ H3]. destruct (reqb (f rz) rz) eqn:E; [left; apply reqb_spec; auto|right]. intros b o Hb Ho Hn.
      specialize (H3 b o Hb Ho). rewrite HE, Hn in H3. cbn [d_map dv] in H3.
      change (legs (bt_elementwise f T)) with (legs T) in H3. rewrite H2 in H3 by auto. unfold bentry in H3. rewrite Hn in H3.
      apply reqb_spec in H3. congruence.
    - intros H. split; [exact H1|]. intros b o Hb Ho. cbn [d_map dv].
      change (legs (bt_elementwise f T)) with (legs T) in *. rewrite H2 by auto. rewrite HE. unfold bentry.
      destruct (assoc leqb b (b_blocks T)) eqn:E; auto. destruct H as [H|H]; auto. exfalso. apply (H b o Hb Ho E).
  Qed.

  (** * Sorting blocks with distinct keys *)
  Lemma fm_sort_perm V (l : list (list nat * V)) : Permutation l (fm_sort lexb l).
  Proof.
    induction l as [|x l IH]; [constructor|]. change (fm_sort lexb (x :: l)) with (ins_sorted lexb x (fm_sort lexb l)).
    assert (HI : forall x (l : list (list nat * V)), Permutation (x :: l) (ins_sorted lexb x l)).
    { clear. intros x l. induction l as [|y l IH]; cbn; auto. destruct (lexb (fst y) (fst x)); auto.
      eapply perm_trans; [apply perm_swap|]. constructor. exact IH. }
    eapply perm_trans; [|apply HI]. constructor. exact IH.
  Qed.
  Lemma assoc_nodup V (l : list (list nat * V)) k v : NoDup (map fst l) -> (assoc leqb k l = Some v <-> In (k, v) l).
  Proof.
    induction l as [|[k' v'] l IH]; intros HN; cbn [assoc fst snd]; [split; [discriminate|intros []]|].
    cbn [map fst] in HN. inversion HN as [|? ? Hn HN']; subst. destruct (leqb k' k) eqn:E.
    - apply leqb_eq in E. subst k'. split; [intros [= ->]; left; auto|]. intros [[= ->]|H]; auto.
      exfalso. apply Hn. apply in_map_iff. exists (k, v). auto.
    - rewrite IH by auto. split; [right; auto|]. intros [[= -> ->]|H]; auto. rewrite leqb_refl in E. discriminate.
  Qed.
  Lemma sort_nodup V (l : list (list nat * V)) : NoDup (map fst l) ->
    sorted lexb (fm_sort lexb l) /\ forall k, assoc leqb k (fm_sort lexb l) = assoc leqb k l.
  Proof.
    intros HN. assert (HN' : NoDup (map fst (fm_sort lexb l))).
    { eapply Permutation_NoDup; [|exact HN]. apply Permutation_map. apply fm_sort_perm. }
    split.
    - pose proof (fm_sort_wsorted KO l) as HW. revert HN' HW. generalize (fm_sort lexb l) as m.
      induction m as [|x m IH]; intros HN' HW; [constructor|]. apply wsorted_cons in HW as [H1 H2].
      cbn in HN'. inversion HN' as [|? ? Hn HN2]; subst. apply sorted_cons. split; [|apply IH; auto].
      intros e He. destruct (lexb (fst x) (fst e)) eqn:E; auto. exfalso. apply Hn.
      assert (fst x = fst e) as -> by (apply lexb_total; auto). apply in_map; auto.
    - intros k. destruct (assoc leqb k l) as [v|] eqn:E.
      + apply assoc_nodup; auto. apply (Permutation_in _ (fm_sort_perm l)). apply assoc_nodup; auto.
      + destruct (assoc leqb k (fm_sort lexb l)) as [v|] eqn:E2; auto. exfalso.
        apply assoc_nodup in E2; auto. apply (Permutation_in _ (Permutation_sym (fm_sort_perm l))) in E2.
        apply (assoc_nodup _ _ _ HN) in E2. congruence.
  Qed.
  Lemma sorted_nodup V (l : list (list nat * V)) : sorted lexb l -> NoDup (map fst l).
  Proof.
    induction l as [|e l IH]; intros H; cbn; [constructor|]. apply sorted_cons in H as [H1 H2]. constructor; auto.
    intros Hi. apply in_map_iff in Hi as [x [E Hx]]. specialize (H1 x Hx). rewrite E, lexb_irrefl in H1. discriminate.
  Qed.

  (** * permute *)
  Lemma NoDup_map_inj' A B (f : A -> B) l : (forall x y, In x l -> In y l -> f x = f y -> x = y) -> NoDup l -> NoDup (map f l).
  Proof.
    induction l as [|x l IH]; intros Hf HN; cbn; constructor; inversion HN as [|? ? H1 H2]; subst.
    - rewrite in_map_iff. intros [y [H H']]. apply Hf in H; cbn; auto. subst; contradiction.
    - apply IH; auto. intros y z Hy Hz. apply Hf; cbn; auto.
  Qed.
  Lemma gather_Permutation A (d : A) p l : is_perm p (length l) -> Permutation (gather d p l) l.
  Proof.
    intros H. unfold gather. eapply perm_trans; [apply Permutation_map; exact H|]. rewrite map_nth_seq. reflexivity.
  Qed.
  Lemma is_permb_spec p n : is_permb p n = true <-> is_perm p n.
  Proof.
    unfold is_permb, is_perm. rewrite andb_true_iff, Nat.eqb_eq, forallb_forall. split.
    - intros [H1 H2]. apply Permutation_sym. apply NoDup_Permutation_bis; [apply seq_NoDup|rewrite seq_length; lia|].
      intros k Hk. specialize (H2 k Hk). apply existsb_exists in H2 as [x [Hx E]]. apply Nat.eqb_eq in E. subst; auto.
    - intros H. split; [apply Permutation_length in H; rewrite seq_length in H; auto|]. intros k Hk.
      apply existsb_exists. exists k. split; [|apply Nat.eqb_refl]. apply (Permutation_in _ (Permutation_sym H)); auto.
  Qed.
  Lemma rmapM_rnth A (d : A) l p : (forall k, In k p -> k < length l) -> rmapM (rnth l) p = Ok (gather d p l).
  Proof.
    intros H. rewrite rmapM_pure with (g := fun k => nth k l d); [reflexivity|]. intros k Hk. apply rnth_Ok; auto.
  Qed.
  Lemma flat_map_gather A (L : list (list A)) p : flat_map (fun d => nth d L []) p = concat (gather [] p L).
  Proof. unfold gather. rewrite flat_map_concat_map. reflexivity. Qed.

  Lemma qprod_perm (l m : list G) : Permutation l m -> qprod G l = qprod G m.
  Proof.
    induction 1 as [|x l m _ IH|x y l|l m n _ IH1 _ IH2]; auto.
    - change (qop G x (qprod G l) = qop G x (qprod G m)). rewrite IH. reflexivity.
    - change (qop G y (qop G x (qprod G l)) = qop G x (qop G y (qprod G l))). rewrite !qop_assoc, (qop_comm _ y x). reflexivity.
    - rewrite IH1. exact IH2.
  Qed.

  (** The tensor that [permute] builds, described by what it contains. *)
  Definition permuted T p T' : Prop :=
    b_rule T' = b_rule T /\ b_rank T' = b_rank T /\ b_sbd T' = gather 0 p (b_sbd T) /\
    legs T' = gather [] p (legs T) /\ qlegs T' = gather [] p (qlegs T) /\
    forall k, length k = b_rank T -> assoc leqb (gather 0 p k) (b_blocks T') = option_map (d_permute p) (assoc leqb k (b_blocks T)).

  Lemma gather_lens A (L : list (list A)) p : map (@length A) (gather [] p L) = gather 0 p (map (@length A) L).
  Proof. apply map_gather. Qed.

  Lemma permute_blocks T p : valid T -> is_perm p (b_rank T) ->
    let l := map (fun e => (gather 0 p (fst e), d_permute p (snd e))) (b_blocks T) in
    NoDup (map fst l) /\
    forall k, length k = b_rank T -> assoc leqb (gather 0 p k) l = option_map (d_permute p) (assoc leqb k (b_blocks T)).
  Proof.
    intros HV HP l. pose proof HV as [HM [HB HS]].
    assert (HL : forall e, In e (b_blocks T) -> length (fst e) = b_rank T).
    { intros [k t] He. destruct (HB k t He) as [[Hr _] _]. apply in_range_length in Hr. cbn. rewrite Hr. apply HM. }
    assert (HI : forall x y, length x = b_rank T -> length y = b_rank T -> gather 0 p x = gather 0 p y -> x = y).
    { intros x y Hx Hy E. rewrite <- (gather_inv 0 (p := p) x), <- (gather_inv 0 (p := p) y) by congruence. congruence. }
    assert (HN : NoDup (map fst l)).
    { unfold l. rewrite map_map. cbn [fst]. rewrite <- (map_map fst (gather 0 p)). apply NoDup_map_inj'.
      - intros x y Hx Hy. apply in_map_iff in Hx as [e [<- He]]. apply in_map_iff in Hy as [e' [<- He']]. apply HI; auto.
      - apply sorted_nodup; auto. }
    split; auto. intros k Hk. destruct (assoc leqb k (b_blocks T)) as [t|] eqn:E.
    - cbn [option_map]. apply assoc_nodup; auto. apply (assoc_In KO) in E. unfold l. apply in_map_iff. exists (k, t). auto.
    - cbn [option_map]. destruct (assoc leqb (gather 0 p k) l) as [t|] eqn:E2; auto. exfalso.
      apply assoc_nodup in E2; auto. unfold l in E2. apply in_map_iff in E2 as [[k' t'] [[= E3 _] Hi]].
      pose proof (HL _ Hi) as Hl. cbn in Hl. apply HI in E3; auto. subst k'. apply (In_assoc KO) in Hi; auto. congruence.
  Qed.

  Lemma permuted_valid T p T' : valid T -> is_perm p (b_rank T) -> permuted T p T' -> meta_ok T' -> sorted lexb (b_blocks T') ->
    (forall k t, assoc leqb k (b_blocks T') = Some t -> exists k', length k' = b_rank T /\ k = gather 0 p k') -> valid T'.
  Proof.
    intros HV HP [P1 [P2 [P3 [P4 [P5 P6]]]]] HM' HS' Hk. split; auto. split; auto. apply blocks_ok_assoc; auto.
    intros k t E. destruct (Hk k t E) as [k' [Hl ->]]. rewrite P6 in E by auto.
    destruct (assoc leqb k' (b_blocks T)) as [t'|] eqn:E'; [|discriminate]. injection E as <-.
    destruct (valid_assoc _ HV E') as [[A1 A2] A3]. pose proof (legs_length (proj1 HV)) as LL. pose proof (qlegs_length (proj1 HV)) as LQ.
    split.
    - split.
      + rewrite P3. rewrite in_range_gather; auto.
        * rewrite (proj1 (proj1 HV)). auto.
        * rewrite (proj1 (proj1 HV)). auto.
      + rewrite P1, P5, pick_gather by (rewrite ?LQ; auto). rewrite <- A2.
        assert (HQ : Permutation (gather (qe G) p (pick (qe G) (qlegs T) k')) (pick (qe G) (qlegs T) k')).
        { apply gather_Permutation. rewrite pick_length by (rewrite LQ; auto). rewrite LQ. auto. }
        apply (qprod_perm HQ).
    - rewrite P4, pick_gather by (rewrite ?LL; auto). cbn. rewrite A3. reflexivity.
  Qed.

  Lemma rmapM_ext A B (f g : A -> result B) l : (forall x, In x l -> f x = g x) -> rmapM f l = rmapM g l.
  Proof.
    induction l as [|x l IH]; intros H; cbn; auto. rewrite (H x) by (left; auto). rewrite IH; auto. intros y Hy. apply H. right; auto.
  Qed.
  Lemma permute_spec T inp p : valid T -> rmapM (zdim (b_rank T)) inp = Ok p -> is_perm p (b_rank T) ->
    exists T', permute T inp = Ok T' /\ valid T' /\ permuted T p T'.
  Proof.
    intros HV HZ HP. pose proof HV as [HM [HB HS]]. pose proof HM as [M1 [M2 M3]].
    pose proof (legs_length HM) as LL. pose proof (qlegs_length HM) as LQ.
    assert (Hlt : forall k, In k p -> k < b_rank T).
    { intros k Hk. apply (Permutation_in _ HP) in Hk. apply in_seq in Hk. lia. }
    assert (Hinp : length inp = b_rank T).
    { rewrite <- (is_perm_length HP). clear -HZ. revert p HZ. induction inp as [|x l IH]; cbn; intros p; [intros [= <-]; auto|].
      destruct (zdim _ x); cbn; try discriminate. destruct (rmapM _ l); cbn; try discriminate. intros [= <-]. cbn. f_equal. auto. }
    destruct (permute_blocks HV HP) as [BN BA]. set (l := map _ (b_blocks T)) in *.
    set (T' := @mkB G R (b_rule T) (b_rank T) (gather 0 p (b_sbd T)) (flat_map (fun d => prange (b_sbd T) (b_ss T) d) p)
              (flat_map (fun d => prange (b_sbd T) (b_cv T) d) p) (fm_sort lexb l)).
    assert (HF : forall A (c : list A), flat_map (fun d => prange (b_sbd T) c d) p = concat (gather [] p (unpack (b_sbd T) c))).
    { intros A c. rewrite <- flat_map_gather. rewrite !flat_map_concat_map. f_equal. apply map_ext_in. intros d Hd.
      apply prange_unpack. rewrite M1. auto. }
    assert (HU : forall A (c : list A), sum_list (b_sbd T) = length c ->
       unpack (gather 0 p (b_sbd T)) (concat (gather [] p (unpack (b_sbd T) c))) = gather [] p (unpack (b_sbd T) c)).
    { intros A c Hc. rewrite <- (unpack_concat (gather [] p (unpack (b_sbd T) c))) at 2. f_equal. rewrite map_gather. cbn [length]. f_equal.
      symmetry. apply unpack_lengths; lia. }
    assert (HPd : permuted T p T').
    { repeat split; auto.
      - unfold legs. cbn. rewrite HF. apply HU; auto.
      - unfold qlegs. cbn. rewrite HF. apply HU; auto.
      - intros k Hk. cbn [T' b_blocks]. rewrite (proj2 (sort_nodup _ BN)). auto. }
    assert (HML : forall A (c : list A), sum_list (b_sbd T) = length c ->
        sum_list (gather 0 p (b_sbd T)) = length (flat_map (fun d => prange (b_sbd T) c d) p)).
    { intros A c Hc. rewrite HF. rewrite <- (unpack_lengths (b_sbd T) c) at 1 by lia. rewrite <- (map_gather (@length A) []).
      generalize (gather [] p (unpack (b_sbd T) c)). clear. induction l as [|x l IH]; auto. cbn [map concat]. rewrite app_length. rewrite <- IH. reflexivity. }
    assert (HM' : meta_ok T').
    { repeat split; cbn.
      - rewrite gather_length. apply (is_perm_length HP).
      - apply HML; auto.
      - apply HML; auto. }
    assert (HV' : valid T').
    { apply (permuted_valid HV HP HPd HM'). { apply (sort_nodup _ BN). }
      intros k t. cbn [T' b_blocks]. rewrite (proj2 (sort_nodup _ BN)). intros E. apply assoc_nodup in E; auto.
      unfold l in E. apply in_map_iff in E as [[k' t'] [[= <- _] Hi]]. exists k'. split; auto. 
      destruct (HB _ _ Hi) as [[Hr _] _]. apply in_range_length in Hr. cbn. congruence. }
    exists T'. split; auto. unfold permute. rewrite Hinp, Nat.eqb_refl. cbn [negb]. rewrite HZ. cbn [rbind].
    rewrite rmapM_pure with (g := fun e => (gather 0 p (fst e), d_permute p (snd e))).
    - cbn [rbind]. rewrite (rmapM_rnth 0) by (rewrite M1; auto). cbn [rbind]. fold l. fold T'. apply valid_make; auto.
    - intros [k t] Hi. destruct (HB _ _ Hi) as [[Hr _] Hs]. apply in_range_length in Hr.
      rewrite (rmapM_rnth 0) by (intros j Hj; rewrite Hr, M1; auto). cbn [rbind]. unfold t_permute.
      rewrite (proj2 (is_permb_spec _ _)); auto. rewrite Hs, pick_length; rewrite LL; auto. congruence.
  Qed.

  Lemma permuted_dense T p T' D : valid T -> is_perm p (b_rank T) -> permuted T p T' -> dense_form T D -> dense_form T' (d_permute p D).
  Proof.
    intros HV HP [P1 [P2 [P3 [P4 [P5 P6]]]]] [D1 D2]. pose proof HV as [HM _]. pose proof HM as [M1 _].
    pose proof (legs_length HM) as LL. split.
    - cbn. rewrite P4, D1, map_gather. reflexivity.
    - rewrite P3, P4. intros b o Hb Ho.
      assert (Lb : length b = b_rank T). { apply in_range_length in Hb. rewrite Hb, gather_length. apply (is_perm_length HP). }
      assert (Lo : length o = b_rank T).
      { apply in_range_length in Ho. rewrite Ho, pick_length, gather_length; [apply (is_perm_length HP)|].
        rewrite Lb, gather_length. symmetry. apply (is_perm_length HP). }
      set (b0 := gather 0 (inv_perm p) b). set (o0 := gather 0 (inv_perm p) o).
      assert (Eb : b = gather 0 p b0) by (symmetry; apply gather_inv'; rewrite Lb; auto).
      assert (Eo : o = gather 0 p o0) by (symmetry; apply gather_inv'; rewrite Lo; auto).
      assert (Lb0 : length b0 = b_rank T) by (unfold b0; rewrite gather_length, inv_perm_length; apply (is_perm_length HP)).
      assert (Lo0 : length o0 = b_rank T) by (unfold o0; rewrite gather_length, inv_perm_length; apply (is_perm_length HP)).
      clearbody b0 o0. subst b o.
      rewrite in_range_gather in Hb by (rewrite M1; auto).
      rewrite pick_gather in Ho by (rewrite ?LL; auto).
      rewrite in_range_gather in Ho by (rewrite pick_length; rewrite ?LL; auto).
      rewrite place_gather by (rewrite ?LL; auto). cbn [d_permute dv].
      rewrite gather_inv by (rewrite place_length; rewrite ?LL; auto).
      rewrite D2 by auto. unfold bentry. rewrite P6 by auto. destruct (assoc leqb b0 (b_blocks T)); cbn; auto.
      rewrite gather_inv by (rewrite Lo0; auto). reflexivity.
  Qed.

  (** Permuting by [p] and back. *)
  Lemma permute_back T p T1 T2 : valid T -> valid T1 -> is_perm p (b_rank T) -> permuted T p T1 -> permuted T1 (inv_perm p) T2 -> valid T2 ->
    same_meta T T2 /\
    (forall k, match assoc leqb k (b_blocks T), assoc leqb k (b_blocks T2) with
               | None, None => True
               | Some t, Some t' => deq t t'
               | _, _ => False
               end).
  Proof.
    intros HV HV1 HP [P1 [P2 [P3 [P4 [P5 P6]]]]] [Q1 [Q2 [Q3 [Q4 [Q5 Q6]]]]] HV2. pose proof HV as [HM _]. pose proof HM as [M1 [M2 M3]].
    pose proof (legs_length HM) as LL. pose proof (qlegs_length HM) as LQ. pose proof HV2 as [[N1 [N2 N3]] _].
    rewrite P3, gather_inv in Q3 by (rewrite M1; auto).
    rewrite P4, gather_inv in Q4 by (rewrite LL; auto).
    rewrite P5, gather_inv in Q5 by (rewrite LQ; auto).
    assert (MS : same_meta T T2).
    { repeat split; try congruence.
      - rewrite <- (concat_unpack (b_sbd T) (b_ss T)) by auto. rewrite <- (concat_unpack (b_sbd T2) (b_ss T2)) by auto. f_equal. symmetry. exact Q4.
      - rewrite <- (concat_unpack (b_sbd T) (b_cv T)) by auto. rewrite <- (concat_unpack (b_sbd T2) (b_cv T2)) by auto. f_equal. symmetry. exact Q5. }
    split; auto. intros k.
    destruct (Nat.eq_dec (length k) (b_rank T)) as [Hk|Hk].
    - pose proof (P6 k Hk) as E1. assert (Hg : length (gather 0 p k) = b_rank T1) by (rewrite gather_length, P2; apply (is_perm_length HP)).
      pose proof (Q6 _ Hg) as E2. rewrite gather_inv in E2 by (rewrite Hk; auto). rewrite E2, E1.
      destruct (assoc leqb k (b_blocks T)) as [t|] eqn:E; cbn; auto.
      destruct (valid_assoc _ HV E) as [_ Hs]. assert (Ls : length (dsh t) = b_rank T) by (rewrite Hs, pick_length; rewrite LL; auto).
      split.
      + cbn. rewrite gather_inv by (rewrite Ls; auto). reflexivity.
      + cbn. intros i Hi. apply in_range_length in Hi. f_equal. symmetry. 
        rewrite gather_inv' with (p := inv_perm p) ; auto. rewrite Hi, Ls. apply inv_perm_is_perm; auto.
    - assert (HX : forall X : btensor G R, valid X -> b_rank X = b_rank T -> assoc leqb k (b_blocks X) = None).
      { intros X HX Er. destruct (assoc leqb k (b_blocks X)) eqn:E; auto. destruct (valid_assoc _ HX E) as [[Hr _] _].
        apply in_range_length in Hr. rewrite (proj1 (proj1 HX)) in Hr. congruence. }
      rewrite !HX; auto; congruence.
  Qed.
End P.
