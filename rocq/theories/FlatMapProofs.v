(** Proofs about the sorted block map. *)
From Verif Require Import Base FlatMap SpecFlatMap.
Set Implicit Arguments.

Section Proofs.
  Variables K V : Type.
  Variable keqb : K -> K -> bool.
  Variable kltb : K -> K -> bool.
  Hypothesis HK : key_order keqb kltb.
  Notation entry := (K * V)%type.
  Notation sorted := (sorted (V:=V) kltb).
  Notation assoc := (assoc (V:=V) keqb).
  Notation lower_bound := (lower_bound (V:=V) kltb).

  Unset Implicit Arguments.
  Lemma keq a b : keqb a b = true <-> a = b. Proof. apply HK. Qed.
  Lemma kirr a : kltb a a = false. Proof. apply HK. Qed.
  Lemma ktr a b c : kltb a b = true -> kltb b c = true -> kltb a c = true. Proof. apply HK. Qed.
  Lemma ktot a b : kltb a b = true \/ a = b \/ kltb b a = true. Proof. apply HK. Qed.
  Lemma keq_refl a : keqb a a = true. Proof. apply keq; reflexivity. Qed.
  Lemma klt_neq a b : kltb a b = true -> keqb a b = false.
  Proof.
    intros H. destruct (keqb a b) eqn:E; [|reflexivity]. apply keq in E; subst. rewrite kirr in H; discriminate.
  Qed.
  Lemma klt_neq' a b : kltb a b = true -> keqb b a = false.
  Proof.
    intros H. destruct (keqb b a) eqn:E; [|reflexivity]. apply keq in E; subst. rewrite kirr in H; discriminate.
  Qed.
  Lemma klt_asym a b : kltb a b = true -> kltb b a = false.
  Proof.
    intros H. destruct (kltb b a) eqn:E; [|reflexivity].
    pose proof (ktr _ _ _ H E) as C. rewrite kirr in C; discriminate.
  Qed.
  Lemma kge_cases a b : kltb a b = false -> a = b \/ kltb b a = true.
  Proof. intros H. destruct (ktot a b) as [H1|[H1|H1]]; auto. congruence. Qed.

  Set Implicit Arguments.

  Definition all_lt (l : list entry) (k : K) := forall e, In e l -> kltb (fst e) k = true.
  Definition all_gt (k : K) (l : list entry) := forall e, In e l -> kltb k (fst e) = true.
  Definition lists_lt (a b : list entry) := forall x y, In x a -> In y b -> kltb (fst x) (fst y) = true.

  (** *** sorted lists *)
  Lemma sorted_nil : sorted []. Proof. constructor. Qed.
  Lemma sorted_cons e l : sorted (e :: l) <-> all_gt (fst e) l /\ sorted l.
  Proof.
    split.
    - intros H. inversion H as [|? ? H1 H2]; subst. split; [|assumption].
      intros x Hx. rewrite Forall_forall in H2. apply H2; assumption.
    - intros [H1 H2]. constructor; [assumption|]. apply Forall_forall. exact H1.
  Qed.
  Lemma sorted_app a b : sorted (a ++ b) <-> sorted a /\ sorted b /\ lists_lt a b.
  Proof.
    induction a as [|e a IH]; cbn [app].
    - split; [intros H; split; [constructor|split; [assumption|intros ? ? []]]|tauto].
    - rewrite !sorted_cons, IH. unfold all_gt, lists_lt. split.
      + intros (H1 & H2 & H3 & H4). split; [split; [|assumption]|split; [assumption|]].
        * intros x Hx. apply H1, in_or_app; auto.
        * intros x y [<-|Hx] Hy; [apply H1, in_or_app; auto|auto].
      + intros ((H1 & H2) & H3 & H4). split; [|split; [assumption|split; [assumption|]]].
        * intros x Hx. apply in_app_or in Hx as [Hx|Hx]; [auto|]. apply H4; [left; reflexivity|assumption].
        * intros x y Hx Hy. apply H4; [right|]; assumption.
  Qed.
  Lemma all_lt_cons e l k : all_lt (e :: l) k <-> kltb (fst e) k = true /\ all_lt l k.
  Proof.
    unfold all_lt; split.
    - intros H; split; [apply H; left; auto|intros x Hx; apply H; right; auto].
    - intros [H1 H2] x [->|Hx]; auto.
  Qed.
  Lemma all_gt_cons e l k : all_gt k (e :: l) <-> kltb k (fst e) = true /\ all_gt k l.
  Proof.
    unfold all_gt; split.
    - intros H; split; [apply H; left; auto|intros x Hx; apply H; right; auto].
    - intros [H1 H2] x [->|Hx]; auto.
  Qed.
  Lemma all_lt_app a b k : all_lt (a ++ b) k <-> all_lt a k /\ all_lt b k.
  Proof.
    unfold all_lt; split.
    - intros H; split; intros; apply H, in_or_app; auto.
    - intros [H1 H2] x Hx. apply in_app_or in Hx as []; auto.
  Qed.
  Lemma all_gt_app a b k : all_gt k (a ++ b) <-> all_gt k a /\ all_gt k b.
  Proof.
    unfold all_gt; split.
    - intros H; split; intros; apply H, in_or_app; auto.
    - intros [H1 H2] x Hx. apply in_app_or in Hx as []; auto.
  Qed.

  (** *** lower_bound *)
  Inductive lbview (k : K) (l : list entry) : Prop :=
  | LBend : all_lt l k -> lower_bound k l = length l -> lbview k l
  | LBeq l1 v l2 : l = l1 ++ (k, v) :: l2 -> all_lt l1 k -> all_gt k l2 ->
      lower_bound k l = length l1 -> lbview k l
  | LBgt l1 e l2 : l = l1 ++ e :: l2 -> all_lt l1 k -> all_gt k (e :: l2) ->
      lower_bound k l = length l1 -> lbview k l.

  Lemma lb_view k l : sorted l -> lbview k l.
  Proof.
    induction l as [|e l IH]; intros Hs.
    - apply LBend; [intros ? []|reflexivity].
    - apply sorted_cons in Hs as [Hg Hs]. destruct (kltb (fst e) k) eqn:E.
      + destruct (IH Hs) as [H1 H2|l1 v l2 -> H1 H2 H3|l1 x l2 -> H1 H2 H3].
        * apply LBend; [apply all_lt_cons; auto|cbn; rewrite E, H2; reflexivity].
        * apply LBeq with (e :: l1) v l2; auto; [apply all_lt_cons; auto|cbn; rewrite E, H3; reflexivity].
        * apply LBgt with (e :: l1) x l2; auto; [apply all_lt_cons; auto|cbn; rewrite E, H3; reflexivity].
      + destruct (kge_cases _ _ E) as [H|H].
        * apply LBeq with [] (snd e) l; cbn; auto.
          -- destruct e as [k' v']; cbn in *; subst; reflexivity.
          -- intros ? [].
          -- rewrite <- H; assumption.
          -- rewrite E; reflexivity.
        * apply LBgt with [] e l; cbn; auto.
          -- intros ? [].
          -- apply all_gt_cons; split; [assumption|]. intros x Hx. eapply ktr; [exact H|apply Hg; exact Hx].
          -- rewrite E; reflexivity.
  Qed.

  Lemma nth_error_mid (A : Type) (a : list A) x b : nth_error (a ++ x :: b) (length a) = Some x.
  Proof. rewrite nth_error_app2, Nat.sub_diag; auto. Qed.
  Lemma nth_error_len (A : Type) (a : list A) : nth_error a (length a) = None.
  Proof. apply nth_error_None; auto. Qed.
  Lemma firstn_mid (A : Type) (a b : list A) : firstn (length a) (a ++ b) = a.
  Proof. rewrite firstn_app, Nat.sub_diag, firstn_all, firstn_O, app_nil_r; reflexivity. Qed.
  Lemma skipn_mid (A : Type) (a b : list A) : skipn (length a) (a ++ b) = b.
  Proof. rewrite skipn_app, Nat.sub_diag, skipn_all; reflexivity. Qed.
  Lemma skipn_mid1 (A : Type) (a : list A) x b : skipn (S (length a)) (a ++ x :: b) = b.
  Proof.
    replace (S (length a)) with (length (a ++ [x])) by (rewrite app_length; cbn; lia).
    replace (a ++ x :: b) with ((a ++ [x]) ++ b) by (rewrite <- app_assoc; reflexivity).
    apply skipn_mid.
  Qed.

  (** *** assoc *)
  Lemma assoc_app_lt k a b : all_lt a k -> assoc k (a ++ b) = assoc k b.
  Proof.
    induction a as [|e a IH]; intros H; [reflexivity|].
    apply all_lt_cons in H as [H1 H2]. cbn. rewrite (klt_neq _ _ H1). auto.
  Qed.
  Lemma assoc_gt k l : all_gt k l -> assoc k l = None.
  Proof.
    induction l as [|e a IH]; intros H; [reflexivity|].
    apply all_gt_cons in H as [H1 H2]. cbn. rewrite (klt_neq' _ _ H1). auto.
  Qed.
  Lemma assoc_lt k l : all_lt l k -> assoc k l = None.
  Proof. intros H. rewrite <- (app_nil_r l), assoc_app_lt by assumption. reflexivity. Qed.
  Lemma assoc_app k a b : assoc k (a ++ b) = match assoc k a with Some v => Some v | None => assoc k b end.
  Proof. induction a as [|e a IH]; cbn; [reflexivity|]. destruct (keqb (fst e) k); auto. Qed.
  Lemma assoc_In k v l : assoc k l = Some v -> In (k, v) l.
  Proof.
    induction l as [|e a IH]; cbn; [discriminate|]. destruct (keqb (fst e) k) eqn:E.
    - apply keq in E. intros [= <-]. left. destruct e; cbn in *; subst; reflexivity.
    - right; auto.
  Qed.
  Lemma In_assoc k v l : sorted l -> In (k, v) l -> assoc k l = Some v.
  Proof.
    induction l as [|e a IH]; [intros _ []|]. intros Hs [->|H]; apply sorted_cons in Hs as [Hg Hs].
    - cbn. rewrite keq_refl. reflexivity.
    - cbn. rewrite (klt_neq (fst e) k); [auto|]. apply (Hg (k, v)); assumption.
  Qed.
  Lemma assoc_None k l : assoc k l = None <-> ~ exists v, In (k, v) l.
  Proof.
    induction l as [|e a IH]; cbn.
    - split; [intros _ [v []]|reflexivity].
    - destruct (keqb (fst e) k) eqn:E.
      + apply keq in E. split; [discriminate|]. intros H; exfalso; apply H. exists (snd e).
        left; destruct e; cbn in *; subst; reflexivity.
      + rewrite IH. split.
        * intros H [v [->|Hv]]; [cbn in E; rewrite keq_refl in E; discriminate|eauto].
        * intros H [v Hv]; apply H; eauto.
  Qed.

  (** Sorted lists are determined by their lookups. *)
  Lemma sorted_ext a : forall b, sorted a -> sorted b -> (forall k, assoc k a = assoc k b) -> a = b.
  Proof.
    induction a as [|x a IH]; intros [|y b] Ha Hb H; auto.
    - specialize (H (fst y)). cbn in H. rewrite keq_refl in H. discriminate.
    - specialize (H (fst x)). cbn in H. rewrite keq_refl in H. discriminate.
    - apply sorted_cons in Ha as [Ga Ha]. apply sorted_cons in Hb as [Gb Hb].
      assert (E : fst x = fst y).
      { destruct (ktot (fst x) (fst y)) as [L|[L|L]]; auto.
        - pose proof (H (fst x)) as Hx. cbn in Hx. rewrite keq_refl, (klt_neq' _ _ L) in Hx.
          symmetry in Hx. apply assoc_In in Hx. apply Gb in Hx. cbn in Hx.
          pose proof (ktr _ _ _ L Hx) as C. rewrite kirr in C. discriminate.
        - pose proof (H (fst y)) as Hx. cbn in Hx. rewrite keq_refl, (klt_neq' _ _ L) in Hx.
          apply assoc_In in Hx. apply Ga in Hx. cbn in Hx.
          pose proof (ktr _ _ _ L Hx) as C. rewrite kirr in C. discriminate. }
      f_equal.
      + pose proof (H (fst x)) as Hx. cbn in Hx. rewrite keq_refl in Hx.
        rewrite E, keq_refl in Hx. injection Hx as Hx. destruct x, y; cbn in *; congruence.
      + apply IH; auto. intros k. destruct (keqb (fst x) k) eqn:Ek.
        * apply keq in Ek; subst k. rewrite (assoc_gt Ga). rewrite assoc_gt; [reflexivity|]. rewrite E; exact Gb.
        * specialize (H k). cbn in H. rewrite Ek, <- E, Ek in H. exact H.
  Qed.

  (** *** single-key operations on a decomposed sorted list *)
  Lemma sorted_mid_insert l1 k v l2 : sorted (l1 ++ l2) -> all_lt l1 k -> all_gt k l2 ->
    sorted (l1 ++ (k, v) :: l2).
  Proof.
    rewrite !sorted_app, sorted_cons. intros (H1 & H2 & H3) L G. repeat split; auto.
    intros x y Hx [<-|Hy]; cbn; auto.
  Qed.
  Lemma sorted_mid_remove l1 e l2 : sorted (l1 ++ e :: l2) -> sorted (l1 ++ l2).
  Proof.
    rewrite !sorted_app, sorted_cons. intros (H1 & (H2 & H3) & H4). repeat split; auto.
    intros x y Hx Hy. apply H4; [assumption|right; assumption].
  Qed.
  Lemma assoc_mid_insert l1 k v l2 k' : all_lt l1 k ->
    assoc k' (l1 ++ (k, v) :: l2) = if keqb k k' then Some v else assoc k' (l1 ++ l2).
  Proof.
    intros L. rewrite !assoc_app. cbn. destruct (keqb k k') eqn:E; [|reflexivity].
    apply keq in E; subst k'. rewrite (assoc_lt L). reflexivity.
  Qed.
  Lemma assoc_mid_remove l1 k v l2 k' : all_lt l1 k -> all_gt k l2 ->
    assoc k' (l1 ++ l2) = if keqb k k' then None else assoc k' (l1 ++ (k, v) :: l2).
  Proof.
    intros L G. rewrite !assoc_app. cbn. destruct (keqb k k') eqn:E; [|reflexivity].
    apply keq in E; subst k'. rewrite (assoc_lt L), (assoc_gt G). reflexivity.
  Qed.

  Lemma assoc_view_eq l1 k v l2 : all_lt l1 k -> assoc k (l1 ++ (k, v) :: l2) = Some v.
  Proof. intros L. rewrite (assoc_mid_insert v l2 k L), keq_refl; reflexivity. Qed.
  Lemma assoc_view_gt l1 k e l2 : all_lt l1 k -> all_gt k (e :: l2) -> assoc k (l1 ++ e :: l2) = None.
  Proof. intros L G. rewrite (assoc_app_lt _ L). apply assoc_gt; assumption. Qed.

  Lemma fm_insert_spec l k v : sorted l ->
    exists l' i b, fm_insert keqb kltb l (k, v) = (l', i, b) /\ sorted l' /\
      b = (match assoc k l with Some _ => false | None => true end) /\
      (forall k', assoc k' l' = if b then (if keqb k k' then Some v else assoc k' l) else assoc k' l).
  Proof.
    intros Hs. unfold fm_insert, vec_insert; cbn [fst].
    destruct (lb_view k Hs) as [H1 H2|l1 w l2 -> H1 H2 H3|l1 e l2 -> H1 H2 H3].
    - rewrite H2, nth_error_len. do 3 eexists; split; [reflexivity|].
      rewrite firstn_all, skipn_all. rewrite (assoc_lt H1). repeat split.
      + apply sorted_mid_insert; [rewrite app_nil_r|..]; auto. intros ? [].
      + intros k'. rewrite assoc_mid_insert, app_nil_r by assumption. reflexivity.
    - rewrite H3, nth_error_mid. cbn. rewrite keq_refl; cbn.
      do 3 eexists; split; [reflexivity|]. rewrite assoc_view_eq by assumption. auto.
    - rewrite H3, nth_error_mid. pose proof H2 as H2'. apply all_gt_cons in H2' as [H4 H5]. cbn.
      rewrite (klt_neq' _ _ H4); cbn. do 3 eexists; split; [reflexivity|].
      rewrite firstn_mid, skipn_mid, assoc_view_gt by assumption. repeat split.
      + apply sorted_mid_insert; auto.
      + intros k'. rewrite assoc_mid_insert by assumption. reflexivity.
  Qed.

  Lemma fm_emplace_insert l x : sorted l -> fm_emplace kltb l x = fm_insert keqb kltb l x.
  Proof.
    intros Hs. unfold fm_emplace, fm_insert.
    destruct (lb_view (fst x) Hs) as [H1 H2|l1 w l2 -> H1 H2 H3|l1 e l2 -> H1 H2 H3].
    - rewrite H2, nth_error_len. reflexivity.
    - rewrite H3, nth_error_mid. cbn. rewrite keq_refl, kirr; reflexivity.
    - rewrite H3, nth_error_mid. apply all_gt_cons in H2 as [H4 H5]. rewrite H4, (klt_neq' _ _ H4); reflexivity.
  Qed.

  Lemma fm_at_spec l k : sorted l ->
    fm_at kltb l k = match assoc k l with Some v => Ok v | None => Throw OutOfRange end.
  Proof.
    intros Hs. unfold fm_at.
    destruct (lb_view k Hs) as [H1 H2|l1 w l2 -> H1 H2 H3|l1 e l2 -> H1 H2 H3].
    - rewrite H2, nth_error_len, (assoc_lt H1). reflexivity.
    - rewrite H3, nth_error_mid, (assoc_view_eq w l2 H1). cbn. rewrite kirr. reflexivity.
    - rewrite H3, nth_error_mid, (assoc_view_gt H1 H2). apply all_gt_cons in H2 as [-> ?]. reflexivity.
  Qed.

  Variable vdefault : V.
  Lemma fm_subscript_spec l k : sorted l ->
    exists l' i l1 v l2, fm_subscript kltb vdefault l k = (l', i) /\ sorted l' /\
      l' = l1 ++ (k, v) :: l2 /\ i = length l1 /\ all_lt l1 k /\ all_gt k l2 /\
      v = (match assoc k l with Some v => v | None => vdefault end) /\
      (forall k', assoc k' (l1 ++ l2) = if keqb k k' then None else assoc k' l).
  Proof.
    intros Hs. unfold fm_subscript, vec_insert.
    destruct (lb_view k Hs) as [H1 H2|l1 w l2 -> H1 H2 H3|l1 e l2 -> H1 H2 H3].
    - rewrite H2, nth_error_len, firstn_all, skipn_all. exists (l ++ [(k, vdefault)]), (length l), l, vdefault, [].
      assert (all_gt k []) by (intros ? []).
      split; [reflexivity|]. rewrite (assoc_lt H1). repeat split; auto.
      + apply sorted_mid_insert; [rewrite app_nil_r|..]; auto.
      + intros k'. rewrite app_nil_r. destruct (keqb k k') eqn:E; [|reflexivity].
        apply keq in E; subst. apply assoc_lt; assumption.
    - rewrite H3, nth_error_mid. cbn. rewrite kirr.
      exists (l1 ++ (k, w) :: l2), (length l1), l1, w, l2. rewrite assoc_view_eq by assumption.
      repeat split; auto. intros k'. apply assoc_mid_remove; assumption.
    - rewrite H3, nth_error_mid. pose proof H2 as H2'. apply all_gt_cons in H2' as [H4 H5]. rewrite H4.
      rewrite firstn_mid, skipn_mid.
      exists (l1 ++ (k, vdefault) :: e :: l2), (length l1), l1, vdefault, (e :: l2).
      split; [reflexivity|]. rewrite (assoc_view_gt H1 H2). repeat split; auto.
      + apply sorted_mid_insert; assumption.
      + intros k'. destruct (keqb k k') eqn:E; [|reflexivity]. apply keq in E; subst.
        apply assoc_view_gt; assumption.
  Qed.

  Lemma fm_subscript_assign_spec l k v : sorted l ->
    sorted (fm_subscript_assign kltb vdefault l k v) /\
    (forall k', assoc k' (fm_subscript_assign kltb vdefault l k v) = if keqb k k' then Some v else assoc k' l).
  Proof.
    intros Hs. unfold fm_subscript_assign.
    destruct (fm_subscript_spec k Hs) as (l' & i & l1 & w & l2 & -> & Hs' & -> & -> & L & G & _ & Ha).
    rewrite nth_error_mid, firstn_mid, skipn_mid1. cbn [fst app]. split.
    - apply sorted_mid_insert; auto. eapply sorted_mid_remove; exact Hs'.
    - intros k'. rewrite assoc_mid_insert by assumption. rewrite Ha. destruct (keqb k k'); reflexivity.
  Qed.

  Inductive findview (k : K) (l : list entry) : Prop :=
  | FVnone : assoc k l = None -> fm_find kltb l k = length l -> findview k l
  | FVsome l1 v l2 : l = l1 ++ (k, v) :: l2 -> all_lt l1 k -> all_gt k l2 -> assoc k l = Some v ->
      fm_find kltb l k = length l1 -> findview k l.
  Lemma fm_find_view l k : sorted l -> findview k l.
  Proof.
    intros Hs. unfold fm_find.
    destruct (lb_view k Hs) as [H1 H2|l1 w l2 E H1 H2 H3|l1 e l2 E H1 H2 H3].
    - apply FVnone; [apply assoc_lt; assumption|]. unfold fm_find. rewrite H2, nth_error_len. reflexivity.
    - apply FVsome with l1 w l2; subst; auto.
      + apply assoc_view_eq; assumption.
      + unfold fm_find. rewrite H3, nth_error_mid. cbn. rewrite kirr. reflexivity.
    - apply FVnone; subst; [apply assoc_view_gt; assumption|]. unfold fm_find. rewrite H3, nth_error_mid.
      apply all_gt_cons in H2 as [-> ?]. reflexivity.
  Qed.

  Lemma fm_contains_spec l k : sorted l ->
    fm_contains kltb l k = match assoc k l with Some _ => true | None => false end.
  Proof.
    intros Hs. unfold fm_contains. destruct (fm_find_view k Hs) as [H1 H2|l1 v l2 -> L G H1 H2].
    - rewrite H1, H2, Nat.eqb_refl. reflexivity.
    - rewrite H1, H2. rewrite app_length; cbn. destruct (Nat.eqb_spec (length l1) (length l1 + S (length l2))); [lia|reflexivity].
  Qed.

  (** *** range insertion *)
  Section Range.
    Variable coll : V -> V -> V.
    Variable nocoll : V -> V.
    Notation on_nc := (on_snd (K:=K) nocoll).

    (** The keyed union. *)
    Fixpoint umerge (a : list entry) : list entry -> list entry :=
      fix go (s : list entry) : list entry :=
        match a, s with
        | [], _ => map on_nc s
        | _, [] => a
        | x :: a', y :: s' =>
            if kltb (fst x) (fst y) then x :: umerge a' s
            else if kltb (fst y) (fst x) then on_nc y :: go s'
            else (fst x, coll (snd x) (snd y)) :: umerge a' s'
        end.
    Lemma umerge_nil_l s : umerge [] s = map on_nc s.
    Proof. destruct s; reflexivity. Qed.
    Lemma umerge_nil_r a : umerge a [] = a.
    Proof. destruct a; reflexivity. Qed.
    Lemma umerge_cons x a y s : umerge (x :: a) (y :: s) =
      if kltb (fst x) (fst y) then x :: umerge a (y :: s)
      else if kltb (fst y) (fst x) then on_nc y :: umerge (x :: a) s
      else (fst x, coll (snd x) (snd y)) :: umerge a s.
    Proof. reflexivity. Qed.

    Arguments umerge : simpl never.
    Definition keys_in (l : list entry) (m : list entry) : Prop :=
      forall e, In e l -> exists x, In x m /\ fst x = fst e.
    Lemma umerge_keys a : forall s e, In e (umerge a s) ->
      (exists x, In x a /\ fst x = fst e) \/ (exists x, In x s /\ fst x = fst e).
    Proof.
      induction a as [|x a IHa]; intros s.
      - rewrite umerge_nil_l. intros e He. right. apply in_map_iff in He as (y & <- & Hy). exists y; auto.
      - induction s as [|y s IHs]; intros e.
        + rewrite umerge_nil_r. intros He. left; eauto.
        + rewrite umerge_cons. destruct (kltb (fst x) (fst y)) eqn:E1; [|destruct (kltb (fst y) (fst x)) eqn:E2].
          * intros [<-|He]; [left; exists x; split; [left|]; auto|].
            apply IHa in He as [(z & Hz & Ez)|(z & Hz & Ez)]; [left; exists z; split; [right|]; auto|right; eauto].
          * intros [<-|He]; [right; exists y; split; [left|]; auto|].
            apply IHs in He as [(z & Hz & Ez)|(z & Hz & Ez)]; [left; eauto|right; exists z; split; [right|]; auto].
          * intros [<-|He]; [left; exists x; split; [left|]; auto|].
            apply IHa in He as [(z & Hz & Ez)|(z & Hz & Ez)]; [left; exists z; split; [right|]; auto|right; exists z; split; [right|]; auto].
    Qed.

    Lemma umerge_gt k a s : all_gt k a -> all_gt k s -> all_gt k (umerge a s).
    Proof.
      intros Ha Hs e He. apply umerge_keys in He as [(x & Hx & <-)|(x & Hx & <-)]; auto.
    Qed.

    Lemma umerge_sorted a : forall s, sorted a -> sorted s -> sorted (umerge a s).
    Proof.
      induction a as [|x a IHa]; intros s Ha.
      - rewrite umerge_nil_l. clear Ha. induction s as [|y s IH]; intros Hs; [constructor|].
        apply sorted_cons in Hs as [Hg Hs]. apply sorted_cons. split; [|auto].
        intros e He. apply in_map_iff in He as (z & <- & Hz). cbn. apply Hg; assumption.
      - induction s as [|y s IHs]; intros Hs; [rewrite umerge_nil_r; assumption|].
        pose proof Ha as Ha'. pose proof Hs as Hs'.
        apply sorted_cons in Ha' as [Ga Ha']. apply sorted_cons in Hs' as [Gs Hs'].
        rewrite umerge_cons. destruct (kltb (fst x) (fst y)) eqn:E1; [|destruct (kltb (fst y) (fst x)) eqn:E2].
        + apply sorted_cons; split; [|auto]. apply umerge_gt; [assumption|].
          apply all_gt_cons; split; [assumption|]. intros e He; eapply ktr; [exact E1|auto].
        + apply sorted_cons; split; [|auto]. cbn. apply umerge_gt; [|assumption].
          apply all_gt_cons; split; [assumption|]. intros e He; eapply ktr; [exact E2|auto].
        + destruct (kge_cases _ _ E1) as [E|E]; [|congruence].
          apply sorted_cons; split; [|auto]. cbn. apply umerge_gt; [assumption|]. rewrite E; assumption.
    Qed.

    Lemma umerge_assoc a : forall s k, sorted a -> sorted s -> assoc k (umerge a s) =
      match assoc k a, assoc k s with
      | Some v, Some w => Some (coll v w)
      | Some v, None => Some v
      | None, Some w => Some (nocoll w)
      | None, None => None
      end.
    Proof.
      induction a as [|x a IHa]; intros s k Ha.
      - rewrite umerge_nil_l. clear Ha. intros _. induction s as [|y s IH]; cbn; [reflexivity|].
        destruct (keqb (fst y) k); [reflexivity|]. exact IH.
      - induction s as [|y s IHs]; intros Hs.
        { rewrite umerge_nil_r. cbn. destruct (keqb (fst x) k); [reflexivity|]. destruct (assoc k a); reflexivity. }
        pose proof Ha as Ha'. pose proof Hs as Hs'.
        apply sorted_cons in Ha' as [Ga Ha']. apply sorted_cons in Hs' as [Gs Hs'].
        rewrite umerge_cons. destruct (kltb (fst x) (fst y)) eqn:E1; [|destruct (kltb (fst y) (fst x)) eqn:E2].
        + cbn [SpecFlatMap.assoc]. destruct (keqb (fst x) k) eqn:Ek.
          * apply keq in Ek; subst k. rewrite (klt_neq' _ _ E1). rewrite assoc_gt; [reflexivity|].
            intros e He; eapply ktr; [exact E1|auto].
          * rewrite IHa by assumption. cbn [SpecFlatMap.assoc]. reflexivity.
        + cbn [SpecFlatMap.assoc fst snd on_snd]. destruct (keqb (fst y) k) eqn:Ek.
          * apply keq in Ek; subst k. rewrite (klt_neq' _ _ E2). rewrite (@assoc_gt (fst y) a); [reflexivity|].
            intros e He; eapply ktr; [exact E2|auto].
          * rewrite IHs by assumption. cbn [SpecFlatMap.assoc]. reflexivity.
        + destruct (kge_cases _ _ E1) as [E|E]; [|congruence].
          cbn [SpecFlatMap.assoc fst snd]. rewrite <- E. destruct (keqb (fst x) k) eqn:Ek; [reflexivity|].
          apply IHa; assumption.
    Qed.

    Lemma umerge_app a1 : forall s1 a2 s2,
      lists_lt a1 a2 -> lists_lt a1 s2 -> lists_lt s1 a2 -> lists_lt s1 s2 ->
      umerge (a1 ++ a2) (s1 ++ s2) = umerge a1 s1 ++ umerge a2 s2.
    Proof.
      induction a1 as [|x a1 IHa]; intros s1 a2 s2 H1 H2 H3 H4.
      - rewrite umerge_nil_l. cbn [app]. clear H1 H2. induction s1 as [|y s1 IHs]; cbn [app map]; [reflexivity|].
        assert (IH' : umerge a2 (s1 ++ s2) = map on_nc s1 ++ umerge a2 s2).
        { apply IHs; intros u v Hu Hv; [apply H3|apply H4]; auto; right; auto. }
        destruct a2 as [|z a2].
        + rewrite umerge_nil_l. cbn. rewrite umerge_nil_l in IH'. rewrite umerge_nil_l.
          f_equal. rewrite map_app. reflexivity.
        + rewrite umerge_cons. assert (E : kltb (fst y) (fst z) = true) by (apply H3; left; auto).
          rewrite (klt_asym _ _ E), E, IH'. reflexivity.
      - revert H1 H2 H3 H4. induction s1 as [|y s1 IHs]; intros H1 H2 H3 H4.
        + rewrite umerge_nil_r. cbn [app].
          assert (IH' : umerge (a1 ++ a2) s2 = a1 ++ umerge a2 s2).
          { rewrite <- (umerge_nil_r a1) at 2. rewrite <- IHa; [reflexivity|..]; intros u v Hu Hv; auto.
            - apply H1; [right|]; auto.
            - apply H2; [right|]; auto. }
          destruct s2 as [|z s2].
          * rewrite !umerge_nil_r. reflexivity.
          * rewrite umerge_cons. rewrite (H2 x z) by (left; auto). rewrite IH'. reflexivity.
        + cbn [app]. rewrite !umerge_cons.
          destruct (kltb (fst x) (fst y)) eqn:E1; [|destruct (kltb (fst y) (fst x)) eqn:E2]; cbn [app]; f_equal.
          * apply (IHa (y :: s1)); auto; intros u v Hu Hv; [apply H1|apply H2]; auto; right; auto.
          * apply IHs; auto; intros u v Hu Hv; [apply H3|apply H4]; auto; right; auto.
          * apply IHa; auto; intros u v Hu Hv; [apply H1|apply H2|apply H3|apply H4]; auto; right; auto.
    Qed.

    (** number of source entries with a key absent from [p] *)
    Definition absent (p : list entry) (s : entry) : bool :=
      match assoc (fst s) p with Some _ => false | None => true end.
    Definition cnt (p s : list entry) : nat := length (filter (absent p) s).

    Arguments cnt : simpl never.
    Lemma cnt_app p a b : cnt p (a ++ b) = cnt p a + cnt p b.
    Proof. unfold cnt. rewrite filter_app, app_length. reflexivity. Qed.
    Lemma cnt_cons p e s : cnt p (e :: s) = (match assoc (fst e) p with Some _ => 0 | None => 1 end) + cnt p s.
    Proof. unfold cnt; cbn [filter]. unfold absent at 1. destruct (assoc (fst e) p); reflexivity. Qed.
    Lemma cnt_nil p : cnt p [] = 0. Proof. reflexivity. Qed.
    Lemma cnt_all p s : (forall e, In e s -> assoc (fst e) p = None) -> cnt p s = length s.
    Proof.
      induction s as [|e s IH]; intros H; [reflexivity|].
      rewrite cnt_cons, H, IH; [reflexivity| |left; reflexivity]. intros; apply H; right; assumption.
    Qed.
    Lemma cnt_ext p q s : (forall e, In e s -> assoc (fst e) p = assoc (fst e) q) -> cnt p s = cnt q s.
    Proof.
      induction s as [|e s IH]; intros H; [reflexivity|].
      rewrite !cnt_cons, H, IH; [reflexivity| |left; reflexivity]. intros; apply H; right; assumption.
    Qed.
    Lemma cnt_le p s : cnt p s <= length s.
    Proof. induction s as [|e s IH]; [rewrite cnt_nil; cbn; lia|]. rewrite cnt_cons; cbn. destruct (assoc (fst e) p); lia. Qed.

    Lemma count_new_spec s : forall look done n1, sorted (done ++ look) -> sorted s ->
      lists_lt done s -> length s <= n1 ->
      count_new kltb look s n1 = n1 - (length s - cnt (done ++ look) s).
    Proof.
      induction s as [|e s IH]; intros look done n1 Hl Hs Hd Hn; cbn [count_new length].
      - lia.
      - pose proof Hs as Hs'. apply sorted_cons in Hs' as [Gs Hs'].
        assert (Hle : cnt (done ++ look) s <= length s) by apply cnt_le.
        pose proof (cnt_cons (done ++ look) e s) as Hc.
        cbn in Hn.
        apply sorted_app in Hl as (Hl1 & Hl2 & Hl3).
        assert (Ld : all_lt done (fst e)) by (intros x Hx; apply Hd; [assumption|left; reflexivity]).
        destruct (lb_view (fst e) Hl2) as [H1 H2|l1 w l2 -> H1 H2 H3|l1 x l2 -> H1 H2 H3].
        + rewrite H2, skipn_all.
          assert (cnt (done ++ look) (e :: s) = S (length s)).
          { rewrite cnt_all; [reflexivity|]. intros y Hy. apply assoc_lt. intros z Hz.
            assert (Hz' : kltb (fst z) (fst e) = true).
            { apply in_app_or in Hz as [Hz|Hz]; auto. }
            destruct Hy as [<-|Hy]; [assumption|]. eapply ktr; [exact Hz'|]. apply Gs; assumption. }
          lia.
        + rewrite H3, skipn_mid. cbn [fst]. rewrite kirr.
          rewrite (IH ((fst e, w) :: l2) (done ++ l1)).
          * rewrite <- app_assoc. rewrite Hc.
            rewrite (assoc_app_lt _ Ld), (assoc_view_eq w l2 H1). lia.
          * rewrite <- app_assoc. apply sorted_app; auto.
          * assumption.
          * intros a b Ha Hb. apply in_app_or in Ha as [Ha|Ha].
            -- apply Hd; [assumption|right; assumption].
            -- eapply ktr; [apply H1; exact Ha|apply Gs; exact Hb].
          * lia.
        + rewrite H3, skipn_mid. pose proof H2 as H2'. apply all_gt_cons in H2' as [H4 H5]. rewrite H4.
          rewrite (IH (x :: l2) (done ++ l1)).
          * rewrite <- app_assoc. rewrite Hc.
            rewrite (assoc_app_lt _ Ld), (assoc_view_gt H1 H2). lia.
          * rewrite <- app_assoc. apply sorted_app; auto.
          * assumption.
          * intros a b Ha Hb. apply in_app_or in Ha as [Ha|Ha].
            -- apply Hd; [assumption|right; assumption].
            -- eapply ktr; [apply H1; exact Ha|apply Gs; exact Hb].
          * lia.
    Qed.

    Lemma count_new_cnt l s : sorted l -> sorted s -> count_new kltb l s (length s) = cnt l s.
    Proof.
      intros Hl Hs. rewrite (@count_new_spec s l [] (length s)); auto.
      - cbn [app]. assert (cnt l s <= length s) by apply cnt_le. lia.
      - intros ? ? [].
    Qed.

    (** loop invariant *)
    Record minv (A S0 : list entry) (m : mstate K V) : Prop := {
      mi_rest : exists Ar Sr, A = pre m ++ Ar /\ S0 = src m ++ Sr /\ post m = umerge Ar Sr /\
        lists_lt (pre m) Sr /\ lists_lt (src m) Ar /\
        (forall e, In e Ar -> exists s, In s S0 /\ kltb (fst e) (fst s) = false);
      mi_gap : gap m = cnt (pre m) (src m)
    }.

    Lemma last_view (A : Type) (l : list A) :
      (l = [] /\ nth_error l (length l - 1) = None) \/
      (exists l' x, l = l' ++ [x] /\ nth_error l (length l - 1) = Some x /\ firstn (length l - 1) l = l').
    Proof.
      destruct (rev l) as [|x r] eqn:E.
      - left. apply (f_equal (@rev A)) in E. rewrite rev_involutive in E. subst. auto.
      - right. apply (f_equal (@rev A)) in E. rewrite rev_involutive in E. cbn in E. subst.
        exists (rev r), x. rewrite app_length; cbn [length].
        replace (length (rev r) + 1 - 1) with (length (rev r)) by lia.
        rewrite nth_error_mid, firstn_mid. auto.
    Qed.

    Lemma lists_lt_app_l a b c : lists_lt (a ++ b) c <-> lists_lt a c /\ lists_lt b c.
    Proof.
      unfold lists_lt; split.
      - intros H; split; intros; apply H; auto; apply in_or_app; auto.
      - intros [H1 H2] x y Hx Hy. apply in_app_or in Hx as []; auto.
    Qed.
    Lemma lists_lt_app_r a b c : lists_lt a (b ++ c) <-> lists_lt a b /\ lists_lt a c.
    Proof.
      unfold lists_lt; split.
      - intros H; split; intros; apply H; auto; apply in_or_app; auto.
      - intros [H1 H2] x y Hx Hy. apply in_app_or in Hy as []; auto.
    Qed.

    Definition mmeasure (m : mstate K V) := length (pre m) + length (src m).

    (** Part B in isolation. *)
    Lemma partA_split p x s : sorted (p ++ [x]) -> sorted s ->
      let la := lower_bound (fst x) s in
      exists s1 t, s = s1 ++ t /\ la = length s1 /\ all_lt s1 (fst x) /\
        (( t = [] ) \/ (exists v t', t = (fst x, v) :: t' /\ all_gt (fst x) t')
         \/ (exists e t', t = e :: t' /\ all_gt (fst x) t)).
    Proof.
      intros _ Hs. cbn. destruct (lb_view (fst x) Hs) as [H1 H2|l1 w l2 E H1 H2 H3|l1 e l2 E H1 H2 H3].
      - exists s, []. rewrite app_nil_r. auto.
      - exists l1, ((fst x, w) :: l2). repeat split; auto. right; left; eauto.
      - exists l1, (e :: l2). repeat split; auto. right; right; eauto.
    Qed.

    (** Part B: state after part A satisfying the invariant. *)
    Definition partB (pre2 : list entry) (gap1 : nat) (post2 src2 : list entry) : mres K V :=
      match nth_error src2 (length src2 - 1) with
      | None => MDone (MS pre2 gap1 post2 src2)
      | Some y =>
          let lb := lower_bound (fst y) pre2 in
          let post3 := skipn lb pre2 ++ post2 in
          let pre3 := firstn lb pre2 in
          match post3 with
          | [] => MBad K V
          | e :: post' =>
              if kltb (fst y) (fst e) then MCont (MS pre3 gap1 post3 src2)
              else MCont (MS pre3 gap1 ((fst e, coll (snd e) (snd y)) :: post')
                             (firstn (length src2 - 1) src2))
          end
      end.

    Lemma partB_ok A S0 p g q s :
      sorted A -> sorted S0 -> minv A S0 (MS p g q s) ->
      (q <> [] \/ exists p' x, p = p' ++ [x] /\ all_lt s (fst x)) ->
      (exists m, partB p g q s = MDone m /\ minv A S0 m /\ (pre m = [] \/ src m = [])) \/
      (exists m, partB p g q s = MCont m /\ minv A S0 m /\ mmeasure m <= length p + length s
         /\ (q = [] -> mmeasure m < length p + length s)).
    Proof.
      intros HA HS [(Ar & Sr & EA & ES & Eq & L1 & L2 & Hw) Hg] Hne. cbn in *.
      unfold partB. destruct (last_view s) as [(-> & ->)|(s' & y & -> & -> & Efs)].
      { left. eexists; split; [reflexivity|]. split; [|right; reflexivity].
        constructor; cbn; [|assumption]. exists Ar, Sr. auto 10. }
      right. rewrite Efs.
      assert (Hsp : sorted p) by (subst A; apply sorted_app in HA; tauto).
      assert (Hss : sorted (s' ++ [y])) by (subst S0; apply sorted_app in HS; tauto).
      pose proof Hss as Hss'. apply sorted_app in Hss' as (Hs1 & _ & Hs2).
      assert (Ls' : all_lt s' (fst y)) by (intros a Ha; apply Hs2; [assumption|left; reflexivity]).
      assert (HyS0 : In y S0) by (subst S0; apply in_or_app; left; apply in_or_app; right; left; reflexivity).
      assert (Hy_q : forall e, In e q -> kltb (fst y) (fst e) = true).
      { intros e He. subst q. apply umerge_keys in He as [(z & Hz & <-)|(z & Hz & <-)].
        - apply L2; [apply in_or_app; right; left; reflexivity|assumption].
        - subst S0. apply sorted_app in HS as (_ & _ & HS).
          apply HS; [apply in_or_app; right; left; reflexivity|assumption]. }
      assert (HsSr : lists_lt (s' ++ [y]) Sr) by (subst S0; apply sorted_app in HS as (_ & _ & HS); exact HS).
      assert (HpAr : lists_lt p Ar) by (subst A; apply sorted_app in HA as (_ & _ & HA); exact HA).
      destruct (lb_view (fst y) Hsp) as [H1 H2|l1 w l2 -> H1 H2 H3|l1 e l2 -> H1 H2 H3].
      - (* nothing to move *)
        rewrite H2, skipn_all, firstn_all. cbn [app].
        destruct q as [|e q'] eqn:Eqq.
        { exfalso. destruct Hne as [Hne|(p' & x & -> & Hx)]; [congruence|].
          assert (C1 : kltb (fst x) (fst y) = true) by (apply H1, in_or_app; right; left; reflexivity).
          assert (C2 : kltb (fst y) (fst x) = true) by (apply Hx, in_or_app; right; left; reflexivity).
          rewrite (klt_asym _ _ C1) in C2. discriminate. }
        rewrite (Hy_q e) by (left; reflexivity).
        eexists; split; [reflexivity|]. split.
        + constructor; cbn; [|assumption]. exists Ar, Sr. auto 10.
        + split; [unfold mmeasure; cbn; lia|discriminate].
      - (* collision with y *)
        rewrite H3, skipn_mid, firstn_mid. cbn [app fst]. rewrite kirr.
        eexists; split; [reflexivity|].
        assert (Hl2 : lists_lt (l1) ((fst y, w) :: l2)).
        { apply sorted_app in Hsp as (_ & _ & Hsp). exact Hsp. }
        split; [constructor; cbn|].
        + exists (((fst y, w) :: l2) ++ Ar), (y :: Sr). repeat split.
          * subst A. rewrite <- app_assoc. reflexivity.
          * subst S0. rewrite <- app_assoc. reflexivity.
          * subst q. change (y :: Sr) with ([y] ++ Sr).
            rewrite (umerge_app (a1 := (fst y, w) :: l2) (s1 := [y])).
            -- rewrite umerge_cons. cbn [fst snd]. rewrite kirr, umerge_nil_r. reflexivity.
            -- intros u v Hu Hv. apply HpAr; [apply in_or_app; right|]; assumption.
            -- intros u v Hu Hv. apply L1; [apply in_or_app; right|]; assumption.
            -- intros u v [<-|[]] Hv. apply L2; [apply in_or_app; right; left; reflexivity|assumption].
            -- intros u v [<-|[]] Hv. apply HsSr; [apply in_or_app; right; left; reflexivity|assumption].
          * intros u v Hu [<-|Hv]; [apply H1; assumption|].
            apply L1; [apply in_or_app; left|]; assumption.
          * intros u v Hu Hv. apply in_app_or in Hv as [[<-|Hv]|Hv].
            -- cbn. apply Ls'; assumption.
            -- eapply ktr; [apply Ls'; exact Hu|apply H2; exact Hv].
            -- apply L2; [apply in_or_app; left|]; assumption.
          * intros e He. apply in_app_or in He as [He|He]; [|auto].
            exists y; split; [assumption|]. destruct He as [<-|He]; [apply kirr|].
            apply klt_asym, H2; assumption.
        + rewrite Hg, cnt_app, cnt_cons, cnt_nil, (assoc_view_eq w l2 H1), !Nat.add_0_r. apply cnt_ext.
          intros e He. rewrite assoc_app. destruct (assoc (fst e) l1) eqn:Ee; [reflexivity|].
          apply assoc_gt. apply all_gt_cons; split; cbn; [apply Ls'; assumption|].
          intros z Hz. eapply ktr; [apply Ls'; exact He|apply H2; exact Hz].
        + unfold mmeasure; cbn. rewrite !app_length; cbn. lia.
      - (* move the greater ones *)
        rewrite H3, skipn_mid, firstn_mid. cbn [app].
        pose proof H2 as H2'. apply all_gt_cons in H2' as [H4 H5]. rewrite H4.
        eexists; split; [reflexivity|]. split; [constructor; cbn|].
        + exists ((e :: l2) ++ Ar), Sr. repeat split; auto.
          * subst A. rewrite <- app_assoc. reflexivity.
          * subst q. change Sr with ([] ++ Sr) at 2.
            rewrite (umerge_app (a1 := e :: l2) (s1 := [])).
            -- rewrite umerge_nil_r. reflexivity.
            -- intros u v Hu Hv. apply HpAr; [apply in_or_app; right|]; assumption.
            -- intros u v Hu Hv. apply L1; [apply in_or_app; right|]; assumption.
            -- intros u v [].
            -- intros u v [].
          * intros u v Hu Hv. apply L1; [apply in_or_app; left|]; assumption.
          * intros u v Hu Hv. apply in_app_or in Hv as [Hv|Hv]; [|apply L2; assumption].
            apply in_app_or in Hu as [Hu|[<-|[]]]; [|apply H2; assumption].
            eapply ktr; [apply Ls'; exact Hu|apply H2; exact Hv].
          * intros z Hz. apply in_app_or in Hz as [Hz|Hz]; [|auto].
            exists y; split; [assumption|]. apply klt_asym, H2; assumption.
        + rewrite Hg. apply cnt_ext. intros z Hz. rewrite assoc_app.
          destruct (assoc (fst z) l1) eqn:Ez; [reflexivity|]. apply assoc_gt.
          intros u Hu. apply in_app_or in Hz as [Hz|[<-|[]]]; [|apply H2; assumption].
          eapply ktr; [apply Ls'; exact Hz|apply H2; exact Hu].
        + unfold mmeasure; cbn. rewrite !app_length; cbn. lia.
    Qed.

    Lemma merge_iter_eq p g q s x :
      nth_error p (length p - 1) = Some x ->
      merge_iter kltb coll nocoll (MS p g q s) =
      (let la := lower_bound (fst x) s in
       let fc := match nth_error s la with
                 | Some s => negb (kltb (fst x) (fst s)) | None => false end in
       let copied := skipn (la + if fc then 1 else 0) s in
       if g <? length copied then MBad K V else
       partB (if fc then firstn (length p - 1) p else p) (g - length copied)
             (if fc then match nth_error s la with
                         | Some s => (fst x, coll (snd x) (snd s)) :: map on_nc copied ++ q
                         | None => map on_nc copied ++ q end
              else map on_nc copied ++ q) (firstn la s)).
    Proof. intros H. unfold merge_iter. cbn [pre gap post src]. rewrite H. reflexivity. Qed.

    Lemma merge_iter_ok A S0 m :
      sorted A -> sorted S0 -> minv A S0 m -> pre m <> [] -> src m <> [] ->
      (exists m', merge_iter kltb coll nocoll m = MDone m' /\ minv A S0 m' /\ (pre m' = [] \/ src m' = [])) \/
      (exists m', merge_iter kltb coll nocoll m = MCont m' /\ minv A S0 m' /\ mmeasure m' < mmeasure m).
    Proof.
      intros HA HS Hm Hp Hsne. destruct m as [p g q s]. cbn in Hp, Hsne.
      destruct Hm as [(Ar & Sr & EA & ES & Eq & L1 & L2 & Hw) Hg]. cbn in *.
      destruct (last_view p) as [(-> & _)|(p' & x & -> & Hx & Hfx)]; [congruence|].
      rewrite (@merge_iter_eq _ g q s x Hx), Hfx. cbv zeta.
      assert (Hsp : sorted (p' ++ [x])) by (subst A; apply sorted_app in HA; tauto).
      assert (Hss : sorted s) by (subst S0; apply sorted_app in HS; tauto).
      assert (HsSr : lists_lt s Sr) by (subst S0; apply sorted_app in HS as (_ & _ & HS); exact HS).
      assert (HpAr : lists_lt (p' ++ [x]) Ar) by (subst A; apply sorted_app in HA as (_ & _ & HA); exact HA).
      assert (Lp' : all_lt p' (fst x)).
      { apply sorted_app in Hsp as (_ & _ & Hsp). intros a Ha; apply Hsp; [assumption|left; reflexivity]. }
      assert (Hxin : forall B, In x (p' ++ x :: B)) by (intros; apply in_or_app; right; left; reflexivity).
      destruct (lb_view (fst x) Hss) as [H1 H2|s1 w s2 -> H1 H2 H3|s1 e s2 -> H1 H2 H3].
      - (* nothing copied: source all below x *)
        rewrite H2, nth_error_len, Nat.add_0_r, skipn_all, firstn_all. cbn [length map app].
        cbn [Nat.ltb Nat.leb]. rewrite Nat.sub_0_r.
        destruct (@partB_ok A S0 (p' ++ [x]) g q s) as [H|H]; auto.
        + constructor; cbn; auto. exists Ar, Sr. auto 10.
        + right. exists p', x. auto.
        + right. destruct H as (m' & Em & Im & M1 & M2). exists m'. split; [assumption|]. split; [assumption|].
          unfold mmeasure in *; cbn in *.
          (* x itself is moved: strict decrease *)
          clear - Em M1 M2 H1 Hsne Lp' Hsp HK.
          unfold partB in Em. destruct (last_view s) as [(-> & _)|(s' & y & -> & Ey & Efy)]; [congruence|].
          rewrite Ey in Em.
          assert (Lt : lower_bound (fst y) (p' ++ [x]) <= length p').
          { destruct (lb_view (fst y) Hsp) as [G1 G2|l1 v l2 E G1 G2 G3|l1 e l2 E G1 G2 G3].
            - exfalso. assert (C1 : kltb (fst x) (fst y) = true) by (apply G1, in_or_app; right; left; reflexivity).
              assert (C2 : kltb (fst y) (fst x) = true) by (apply H1, in_or_app; right; left; reflexivity).
              rewrite (klt_asym _ _ C1) in C2; discriminate.
            - rewrite G3. apply (f_equal (@length _)) in E. rewrite !app_length in E; cbn in E. lia.
            - rewrite G3. apply (f_equal (@length _)) in E. rewrite !app_length in E; cbn in E. lia. }
          destruct (skipn (lower_bound (fst y) (p' ++ [x])) (p' ++ [x]) ++ q) as [|e r]; [discriminate|].
          destruct (kltb (fst y) (fst e)); injection Em as <-; unfold mmeasure; cbn;
            rewrite ?firstn_length, !app_length; cbn; lia.
      - (* collision with x *)
        rewrite H3, nth_error_mid. cbn [fst]. rewrite kirr. cbn [negb].
        replace (length s1 + 1) with (S (length s1)) by lia. rewrite skipn_mid1, firstn_mid.
        assert (Ecnt : cnt (p' ++ [x]) (s1 ++ (fst x, w) :: s2) = cnt p' s1 + length s2).
        { rewrite cnt_app. f_equal.
          - apply cnt_ext. intros z Hz. rewrite assoc_app. destruct (assoc (fst z) p'); [reflexivity|].
            cbn. rewrite (klt_neq' _ _ (H1 _ Hz)). reflexivity.
          - change ((fst x, w) :: s2) with ([(fst x, w)] ++ s2). rewrite cnt_app, cnt_cons, cnt_nil. cbn [fst].
            rewrite assoc_app. rewrite (assoc_lt Lp'). cbn [SpecFlatMap.assoc]. rewrite keq_refl. cbn [Nat.add].
            apply cnt_all. intros z Hz. apply assoc_lt. intros u Hu. apply in_app_or in Hu as [Hu|[<-|[]]].
            + eapply ktr; [apply Lp'; exact Hu|apply H2; exact Hz].
            + apply H2; assumption. }
        destruct (Nat.ltb_spec g (length s2)) as [Hlt|Hge]; [lia|].
        cbn [snd].
        destruct (@partB_ok A S0 p' (g - length s2) ((fst x, coll (snd x) w) :: map on_nc s2 ++ q) s1) as [H|H]; auto.
        + constructor; cbn.
          * exists (x :: Ar), ((fst x, w) :: s2 ++ Sr). repeat split.
            -- subst A. rewrite <- app_assoc; reflexivity.
            -- subst S0. rewrite <- app_assoc; reflexivity.
            -- subst q. change (x :: Ar) with ([x] ++ Ar).
               change ((fst x, w) :: s2 ++ Sr) with (((fst x, w) :: s2) ++ Sr).
               rewrite umerge_app.
               ++ rewrite umerge_cons. cbn [fst snd]. rewrite kirr, umerge_nil_l. reflexivity.
               ++ intros u v [<-|[]] Hv. apply HpAr; [apply in_or_app; right; left; reflexivity|assumption].
               ++ intros u v [<-|[]] Hv. apply L1; [apply in_or_app; right; left; reflexivity|assumption].
               ++ intros u v Hu Hv. apply L2; [apply in_or_app; right|]; assumption.
               ++ intros u v Hu Hv. apply HsSr; [apply in_or_app; right|]; assumption.
            -- intros u v Hu Hv. destruct Hv as [<-|Hv]; [apply Lp'; assumption|].
               apply in_app_or in Hv as [Hv|Hv].
               ++ eapply ktr; [apply Lp'; exact Hu|apply H2; exact Hv].
               ++ apply L1; [apply in_or_app; left|]; assumption.
            -- intros u v Hu [<-|Hv]; [apply H1; assumption|].
               apply L2; [apply in_or_app; left|]; assumption.
            -- intros z [<-|Hz]; [|auto]. exists (fst x, w). split; [|cbn; apply kirr].
               subst S0. apply in_or_app; left; apply in_or_app; right; left; reflexivity.
          * lia.
        + left; discriminate.
        + right. destruct H as (m' & Em & Im & M1 & M2). exists m'. split; [assumption|]. split; [assumption|].
          unfold mmeasure in *; cbn in *. rewrite !app_length; cbn. lia.
      - (* source entries above x copied *)
        rewrite H3, nth_error_mid. pose proof H2 as H2'. apply all_gt_cons in H2' as [H4 H5]. rewrite H4. cbn [negb].
        rewrite Nat.add_0_r, skipn_mid, firstn_mid.
        assert (Ecnt : cnt (p' ++ [x]) (s1 ++ e :: s2) = cnt (p' ++ [x]) s1 + length (e :: s2)).
        { rewrite cnt_app. f_equal. apply cnt_all. intros z Hz. apply assoc_lt. intros u Hu.
          apply in_app_or in Hu as [Hu|[<-|[]]].
          - eapply ktr; [apply Lp'; exact Hu|apply H2; exact Hz].
          - apply H2; assumption. }
        destruct (Nat.ltb_spec g (length (e :: s2))) as [Hlt|Hge]; [lia|].
        destruct (@partB_ok A S0 (p' ++ [x]) (g - length (e :: s2)) (map on_nc (e :: s2) ++ q) s1) as [H|H]; auto.
        + constructor; cbn.
          * exists Ar, ((e :: s2) ++ Sr). repeat split.
            -- assumption.
            -- subst S0. rewrite <- app_assoc; reflexivity.
            -- subst q. change Ar with ([] ++ Ar) at 2. rewrite umerge_app.
               ++ rewrite umerge_nil_l. reflexivity.
               ++ intros ? ? [].
               ++ intros ? ? [].
               ++ intros u v Hu Hv. apply L2; [apply in_or_app; right|]; assumption.
               ++ intros u v Hu Hv. apply HsSr; [apply in_or_app; right|]; assumption.
            -- intros u v Hu Hv. apply in_app_or in Hv as [Hv|Hv]; [|apply L1; assumption].
               apply in_app_or in Hu as [Hu|[<-|[]]]; [|apply H2; assumption].
               eapply ktr; [apply Lp'; exact Hu|apply H2; exact Hv].
            -- intros u v Hu Hv. apply L2; [apply in_or_app; left|]; assumption.
            -- assumption.
          * cbn in Ecnt. lia.
        + left; discriminate.
        + right. destruct H as (m' & Em & Im & M1 & M2). exists m'. split; [assumption|]. split; [assumption|].
          unfold mmeasure in *; cbn in *. rewrite !app_length in *; cbn in *. lia.
    Qed.

    Lemma merge_loop_ok A S0 fuel : forall m,
      sorted A -> sorted S0 -> minv A S0 m -> mmeasure m <= fuel ->
      exists m', merge_loop kltb coll nocoll fuel m = MDone m' /\ minv A S0 m' /\ (pre m' = [] \/ src m' = []).
    Proof.
      induction fuel as [|fuel IH]; intros m HA HS Hm Hf.
      - unfold mmeasure in Hf. destruct m as [[|x p] g q s]; cbn in *; [|lia].
        eexists; split; [reflexivity|]. cbn; auto.
      - destruct (pre m) as [|x p] eqn:Ep.
        { exists m. cbn. rewrite Ep. auto. }
        destruct (src m) as [|y s] eqn:Es.
        { exists m. cbn. rewrite Ep, Es. auto. }
        destruct (@merge_iter_ok A S0 m HA HS Hm) as [(m' & E & H1 & H2)|(m' & E & H1 & H2)]; try congruence.
        + exists m'. cbn. rewrite Ep, Es, E. auto.
        + destruct (IH m' HA HS H1 ltac:(lia)) as (m'' & E'' & H''). exists m''. split; [|assumption].
          cbn [merge_loop]. rewrite Ep, Es, E. exact E''.
    Qed.

    Definition leading (s : list entry) (e : entry) : bool := forallb (fun y => kltb (fst e) (fst y)) s.
    Definition touch (s : list entry) (e : entry) : entry := if leading s e then on_nc e else e.

    Lemma assoc_map_touch s a k : assoc k (map (touch s) a) =
      match assoc k a with
      | Some v => Some (if leading s (k, v) then nocoll v else v)
      | None => None end.
    Proof.
      induction a as [|e a IH]; cbn; [reflexivity|].
      assert (fst (touch s e) = fst e) as -> by (unfold touch; destruct (leading s e); reflexivity).
      destruct (keqb (fst e) k) eqn:E; [|exact IH]. apply keq in E; subst k.
      unfold touch. unfold leading; cbn. destruct (forallb _ s); reflexivity.
    Qed.

    (** Exact result of the loop. *)
    Lemma fm_insert_range_eq a s : sorted a -> sorted s ->
      fm_insert_range kltb coll nocoll a s = Ok (umerge (map (touch s) a) s).
    Proof.
      intros Ha Hs. unfold fm_insert_range.
      destruct (@merge_loop_ok a s (length a + length s) (MS a (count_new kltb a s (length s)) [] s))
        as (m & E & [(Ar & Sr & EA & ES & Eq & L1 & L2 & Hw) Hg] & Hfin); auto.
      { constructor; cbn.
        - exists [], []. rewrite !app_nil_r. repeat split; auto; intros ? ? _ [] || intros ? [].
        - apply count_new_cnt; assumption. }
      rewrite E. destruct m as [p g q t]. cbn in *.
      assert (HpAr : lists_lt p Ar) by (subst a; apply sorted_app in Ha as (_ & _ & Ha); exact Ha).
      assert (HtSr : lists_lt t Sr) by (subst s; apply sorted_app in Hs as (_ & _ & Hs); exact Hs).
      assert (Htouch : map (touch s) Ar = Ar).
      { rewrite <- (map_id Ar) at 2. apply map_ext_in. intros e He. unfold touch, leading.
        destruct (Hw e He) as (y & Hy & Ey).
        destruct (forallb (fun y0 => kltb (fst e) (fst y0)) s) eqn:Ef; [|reflexivity].
        rewrite forallb_forall in Ef. rewrite (Ef y Hy) in Ey. discriminate. }
      destruct t as [|y t].
      - (* source exhausted *)
        assert (g = 0) as -> by exact Hg. cbn. f_equal. subst q. cbn in ES; subst Sr.
        assert (Hp : map (touch s) p = map on_nc p).
        { apply map_ext_in. intros e He. unfold touch, leading.
          assert (forallb (fun y => kltb (fst e) (fst y)) s = true) as ->; [|reflexivity].
          apply forallb_forall. intros y Hy. apply L1; assumption. }
        subst a. rewrite map_app, Htouch, Hp.
        change s with ([] ++ s) at 2. rewrite umerge_app.
        + rewrite umerge_nil_r. reflexivity.
        + intros u v Hu Hv. apply in_map_iff in Hu as (u' & <- & Hu'). cbn. apply HpAr; assumption.
        + intros u v Hu Hv. apply in_map_iff in Hu as (u' & <- & Hu'). cbn. apply L1; assumption.
        + intros ? ? [].
        + intros ? ? [].
      - destruct Hfin as [->|]; [|discriminate]. cbn in EA; subst Ar. 
        assert (Eg : g = length (y :: t)).
        { rewrite Hg. apply cnt_all. reflexivity. }
        rewrite Eg. cbn [length Nat.eqb andb]. rewrite Nat.eqb_refl. f_equal. rewrite Htouch.
        change a with ([] ++ a) at 1. subst s. rewrite umerge_app.
        + rewrite umerge_nil_l. subst q. reflexivity.
        + intros ? ? [].
        + intros ? ? [].
        + assumption.
        + assumption.
    Qed.

    Lemma touch_sorted s a : sorted a -> sorted (map (touch s) a).
    Proof.
      induction a as [|e a IH]; intros H; [constructor|]. cbn [map].
      apply sorted_cons in H as [Hg H]. apply sorted_cons. split; [|auto].
      intros x Hx. apply in_map_iff in Hx as (y & <- & Hy).
      assert (forall z, fst (touch s z) = fst z) as Ft by (intros z; unfold touch; destruct (leading s z); reflexivity).
      rewrite !Ft. apply Hg; assumption.
    Qed.

    Lemma fm_insert_range_spec a s : sorted a -> sorted s ->
      exists r, fm_insert_range kltb coll nocoll a s = Ok r /\ sorted r /\
        forall k, assoc k r =
          match assoc k a, assoc k s with
          | Some v, Some w => Some (coll v w)
          | Some v, None => Some (if forallb (fun y => kltb k (fst y)) s then nocoll v else v)
          | None, Some w => Some (nocoll w)
          | None, None => None
          end.
    Proof.
      intros Ha Hs. rewrite fm_insert_range_eq by assumption. eexists; split; [reflexivity|].
      split; [apply umerge_sorted; [apply touch_sorted|]; assumption|].
      intros k. rewrite umerge_assoc by (try apply touch_sorted; assumption).
      rewrite assoc_map_touch. destruct (assoc k a) as [v|] eqn:Ea; [|reflexivity].
      unfold leading; cbn [fst].
      destruct (assoc k s) as [w|] eqn:Es; [|reflexivity].
      destruct (forallb (fun y => kltb k (fst y)) s) eqn:Ef; [|reflexivity].
      rewrite forallb_forall in Ef. apply assoc_In in Es. specialize (Ef _ Es). cbn in Ef.
      rewrite kirr in Ef. discriminate.
    Qed.
  End Range.
End Proofs.
Arguments keq {K keqb kltb} HK a b.
Arguments kirr {K keqb kltb} HK a.
Arguments ktr {K keqb kltb} HK a b c.
Arguments ktot {K keqb kltb} HK a b.
Arguments keq_refl {K keqb kltb} HK a.
Arguments klt_neq {K keqb kltb} HK a b.
Arguments klt_neq' {K keqb kltb} HK a b.
Arguments klt_asym {K keqb kltb} HK a b.
Arguments kge_cases {K keqb kltb} HK a b.
