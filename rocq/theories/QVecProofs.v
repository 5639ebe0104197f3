(** Lemmas on the model of vectors of type-erased quantities. *)
From Coq Require Import Lia Eqdep_dec Permutation.
From Verif Require Import Base Quantity Erased QVec SpecQVec DmrgProofs ErasedProofs.
Set Implicit Arguments.

(** ** Lists, element by element *)
Lemma ne_firstn {A} (l : list A) : forall n k, nth_error (firstn n l) k = if k <? n then nth_error l k else None.
Proof.
  induction l as [|a l IH]; intros n k.
  - rewrite firstn_nil. destruct k; cbn; destruct (_ <? _); reflexivity.
  - destruct n; cbn [firstn]; [destruct k; reflexivity|]. destruct k; cbn; [reflexivity|]. rewrite IH. reflexivity.
Qed.
Lemma ne_skipn {A} (l : list A) : forall n k, nth_error (skipn n l) k = nth_error l (n + k).
Proof. induction l as [|a l IH]; intros [|n] k; cbn; auto; destruct k; auto. Qed.
Lemma ne_app {A} (l m : list A) k : nth_error (l ++ m) k = if k <? length l then nth_error l k else nth_error m (k - length l).
Proof. destruct (Nat.ltb_spec k (length l)); [now apply nth_error_app1|now apply nth_error_app2]. Qed.
Lemma ne_repeat {A} (x : A) n : forall k, nth_error (repeat x n) k = if k <? n then Some x else None.
Proof. induction n as [|n IH]; intros [|k]; cbn; auto. rewrite IH. reflexivity. Qed.
Lemma ne_out {A} (l : list A) k : length l <= k -> nth_error l k = None.
Proof. apply nth_error_None. Qed.
Lemma ne_removelast {A} (l : list A) : forall k, nth_error (removelast l) k = if S k <? length l then nth_error l k else None.
Proof.
  induction l as [|a l IH]; intros k; [destruct k; reflexivity|]. destruct l as [|b l]; [destruct k; reflexivity|].
  change (removelast (a :: b :: l)) with (a :: removelast (b :: l)). destruct k; [reflexivity|]. cbn [nth_error]. rewrite IH. reflexivity.
Qed.

(** ** [permute] *)
Section Permute.
  Context {A : Type}.
  Lemma section_ok (l : list A) n : forall s out p, s + n <= length l -> p + n <= length out ->
    exists out', copy_section l s n out p = Ok out' /\ length out' = length out /\
      forall k, nth_error out' k = if (p <=? k) && (k <? p + n) then nth_error l (s + (k - p)) else nth_error out k.
  Proof.
    induction n as [|n IH]; intros s out p H1 H2; cbn [copy_section].
    - exists out. split; [reflexivity|]. split; [reflexivity|]. intros k. destruct (Nat.leb_spec p k), (Nat.ltb_spec k (p + 0)); cbn; auto; lia.
    - destruct (nth_error l s) as [x|] eqn:E; [|apply nth_error_None in E; lia]. destruct (Nat.ltb_spec p (length out)); [|lia].
      destruct (IH (S s) (upd out p x) (S p)) as (out' & E1 & E2 & E3); [lia|rewrite upd_length; lia|].
      exists out'. split; [exact E1|]. split; [rewrite E2; now apply upd_length|]. intros k. rewrite E3, nth_error_upd by assumption.
      destruct (Nat.leb_spec (S p) k), (Nat.ltb_spec k (S p + n)), (Nat.leb_spec p k), (Nat.ltb_spec k (p + S n)), (Nat.eqb_spec k p); cbn [andb]; try lia; auto.
      + f_equal; lia.
      + subst k. rewrite Nat.sub_diag, Nat.add_0_r. auto.
  Qed.
  Lemma sections_ok (l : list A) rep perm : Forall (fun d => d < length rep) perm -> (forall d, d < length rep -> list_sum (firstn d rep) + nth d rep 0 <= length l) ->
    forall out p, p + extent rep perm <= length out ->
    exists out', copy_sections l rep perm out p = Ok out' /\ length out' = length out /\
      (forall k, k < p -> nth_error out' k = nth_error out k) /\
      forall a d i, nth_error perm a = Some d -> i < nth d rep 0 -> nth_error out' (p + extent rep (firstn a perm) + i) = nth_error l (list_sum (firstn d rep) + i).
  Proof.
    intros Hp Hl. induction perm as [|d perm IH]; intros out p Hx; cbn [copy_sections].
    - exists out. split; [reflexivity|]. split; [reflexivity|]. split; [auto|]. intros a d i H. destruct a; discriminate.
    - apply Forall_cons_iff in Hp. destruct Hp as [Hd Hp]. specialize (IH Hp).
      assert (Ed : nth_error rep d = Some (nth d rep 0)) by (apply nth_error_nth'; assumption). rewrite Ed. unfold extent in Hx. cbn [map list_sum fold_right] in Hx. change (fold_right Nat.add 0 (map (fun d => nth d rep 0) perm)) with (extent rep perm) in Hx.
      destruct (@section_ok l (nth d rep 0) (list_sum (firstn d rep)) out p (Hl d Hd)) as (o1 & E1 & L1 & N1); [lia|]. rewrite E1. cbn [rbind].
      destruct (IH o1 (p + nth d rep 0)) as (o2 & E2 & L2 & N2 & M2); [lia|]. rewrite E2. exists o2. split; [reflexivity|]. split; [lia|]. split.
      + intros k Hk. rewrite N2 by lia. rewrite N1. destruct (Nat.leb_spec p k); [lia|reflexivity].
      + intros [|a] e i Ha Hi; cbn in Ha.
        * injection Ha as ->. cbn [firstn]. unfold extent; cbn [map list_sum fold_right]. rewrite N2 by lia. rewrite N1.
          destruct (Nat.leb_spec p (p + 0 + i)); [|lia]. destruct (Nat.ltb_spec (p + 0 + i) (p + nth e rep 0)); [|lia]. cbn. f_equal; lia.
        * cbn [firstn]. unfold extent; cbn [map list_sum fold_right]. change (fold_right Nat.add 0 (map (fun d => nth d rep 0) (firstn a perm))) with (extent rep (firstn a perm)).
          rewrite <- (M2 a e i Ha Hi). f_equal; lia.
  Qed.
  Lemma extent_seq (rep : list nat) : forall d, d <= length rep -> extent rep (seq 0 d) = list_sum (firstn d rep).
  Proof.
    induction d as [|d IH]; intros Hd; [reflexivity|]. rewrite seq_S. unfold extent. rewrite map_app, list_sum_app. fold (extent rep (seq 0 d)). rewrite IH by lia.
    cbn [map list_sum fold_right Nat.add]. assert (E : nth_error rep d = Some (nth d rep 0)) by (apply nth_error_nth'; lia).
    assert (F : firstn (S d) rep = firstn d rep ++ [nth d rep 0]).
    { apply list_ext. intros k. rewrite ne_firstn, nth_error_snoc, firstn_length, ne_firstn. replace (Nat.min d (length rep)) with d by lia.
      destruct (Nat.ltb_spec k (S d)), (Nat.eqb_spec k d), (Nat.ltb_spec k d); try lia; congruence. }
    rewrite F, list_sum_app. reflexivity.
  Qed.
  Lemma sum_firstn (rep : list nat) d : d < length rep -> list_sum (firstn d rep) + nth d rep 0 <= list_sum rep.
  Proof.
    intros H. rewrite <- (firstn_skipn (S d) rep) at 3. rewrite list_sum_app. rewrite <- (@extent_seq rep (S d)) by lia. rewrite seq_S. unfold extent. rewrite map_app, list_sum_app.
    fold (extent rep (seq 0 d)). rewrite extent_seq by lia. cbn. lia.
  Qed.
  Lemma extent_perm (rep perm : list nat) : a_permutation perm (length rep) -> extent rep perm = list_sum rep.
  Proof.
    intros (H1 & H2 & H3). assert (P : Permutation perm (seq 0 (length rep))).
    { apply NoDup_Permutation_bis; [assumption|rewrite seq_length; lia|]. intros d Hd. rewrite Forall_forall in H3. apply in_seq. specialize (H3 d Hd). lia. }
    transitivity (extent rep (seq 0 (length rep))).
    - unfold extent. apply Permutation_map with (f := fun d => nth d rep 0) in P. clear - P.
      assert (Q : forall l m : list nat, Permutation l m -> list_sum l = list_sum m) by (intros l m HP; unfold list_sum; induction HP; cbn [fold_right]; lia). now apply Q.
    - rewrite (extent_seq _ (le_n _)). now rewrite firstn_all.
  Qed.
End Permute.

Section QP.
  Variable F : family.
  Notation qv := (qv F).
  Notation emb t := (fun x => existT (fun t => f_grp F t) t x).

  Lemma as_elem_ok t (v : qv) : of_type t v -> exists x, v = existT _ t x /\ as_elem t v = Ok x.
  Proof. destruct v as [u x]. unfold of_type; cbn. intros <-. exists x. split; [reflexivity|]. unfold as_elem. now rewrite cast_same. Qed.
  Lemma as_elem_bad t (v : qv) : ~ of_type t v -> as_elem t v = Throw BadCast.
  Proof. intros H. unfold as_elem, cast. destruct (f_dec F (projT1 v) t); [contradiction|reflexivity]. Qed.
  Lemma of_type_dec t (v : qv) : {of_type t v} + {~ of_type t v}.
  Proof. apply (f_dec F). Qed.
  Lemma as_list_ok t (m : list (f_grp F t)) : as_list t (Some (existT _ t m)) = Ok m.
  Proof. cbn. destruct (f_dec F t t) as [e|n]; [|congruence]. rewrite (UIP_dec (f_dec F) e eq_refl). reflexivity. Qed.
  Lemma ne_map t (m : list (f_grp F t)) k : nth_error (map (emb t) m) k = option_map (emb t) (nth_error m k).
  Proof. apply nth_error_map. Qed.

  Lemma modify_ok (s : vstate F) t (m : list (f_grp F t)) o i : target o = Some i ->
    (defined (lists_of s) (map (emb t) m) o -> well_typed (type_of s) t o ->
      exists m', on_list s t m o = Ok m' /\ forall k, elem_after (lists_of s) t (map (emb t) m) o k (nth_error (map (emb t) m') k)) /\
    (defined (lists_of s) (map (emb t) m) o -> ~ well_typed (type_of s) t o -> on_list s t m o = Throw BadCast) /\
    (~ defined (lists_of s) (map (emb t) m) o -> on_list s t m o = UB).
  Proof.
    intros Ht. destruct o; cbn [target] in Ht; try discriminate; cbn [on_list defined well_typed elem_after]; rewrite ?map_length.
    - destruct (Nat.ltb_spec k (length m)) as [L|L]; [|split; [lia|split; [lia|reflexivity]]].
      split; [|split; [|lia]]; intros _ T.
      + destruct (as_elem_ok T) as (x & -> & ->). cbn [rbind]. eexists; split; [reflexivity|]. intros n. rewrite !ne_map, nth_error_upd by assumption. now destruct (n =? k).
      + now rewrite as_elem_bad.
    - destruct (nth_error m k) as [y|] eqn:E.
      + pose proof (nth_error_lt _ _ E) as L. split; [|split; [|lia]]; intros _ T.
        * destruct (as_elem_ok T) as (x & -> & ->). cbn [rbind]. eexists; split; [reflexivity|]. intros n. rewrite !ne_map, nth_error_upd by assumption.
          destruct (Nat.eqb_spec n k) as [->|]; [|reflexivity]. rewrite E. eexists _, _. split; [reflexivity|]. split; [exists t, y, x; repeat split|reflexivity].
        * now rewrite as_elem_bad.
      + apply nth_error_None in E. split; [lia|split; [lia|reflexivity]].
    - split; [|split; [|tauto]]; intros _ T.
      + destruct (as_elem_ok T) as (x & -> & ->). cbn [rbind]. eexists; split; [reflexivity|]. intros n. rewrite !ne_map, nth_error_snoc. now destruct (n =? length m).
      + now rewrite as_elem_bad.
    - destruct m as [|a m]; [split; [intros H; destruct H; reflexivity|split; [intros H; destruct H; reflexivity|reflexivity]]|]. split; [|split; [tauto|]].
      + intros _ _. eexists; split; [reflexivity|]. intros n. rewrite !ne_map, ne_removelast. destruct (S n <? _); reflexivity.
      + intros H. destruct H. discriminate.
    - split; [|split; [tauto|tauto]]. intros _ _. eexists; split; [reflexivity|]. intros k. rewrite !ne_map, ne_app, ne_firstn, ne_repeat, firstn_length.
      destruct (Nat.ltb_spec k (Nat.min n (length m))), (Nat.ltb_spec k n), (Nat.ltb_spec k (length m)), (Nat.ltb_spec (k - Nat.min n (length m)) (n - length m)); try lia; reflexivity.
    - split; [|split; [|tauto]]; intros _ T.
      + destruct (as_elem_ok T) as (x & -> & ->). cbn [rbind]. eexists; split; [reflexivity|]. intros k. rewrite !ne_map, ne_app, ne_firstn, ne_repeat, firstn_length.
        destruct (Nat.ltb_spec k (Nat.min n (length m))), (Nat.ltb_spec k n), (Nat.ltb_spec k (length m)), (Nat.ltb_spec (k - Nat.min n (length m)) (n - length m)); try lia; reflexivity.
      + now rewrite as_elem_bad.
    - destruct (Nat.leb_spec pos (length m)) as [L|L]; [|split; [lia|split; [lia|reflexivity]]]. split; [|split; [|lia]]; intros _ T.
      + destruct (as_elem_ok T) as (x & -> & ->). cbn [rbind]. eexists; split; [reflexivity|]. intros k. rewrite !ne_map, !ne_app, ne_firstn, ne_repeat, repeat_length, ne_skipn, firstn_length.
        replace (Nat.min pos (length m)) with pos by lia.
        destruct (Nat.ltb_spec k pos); [reflexivity|]. destruct (Nat.ltb_spec (k - pos) n), (Nat.ltb_spec k (pos + n)); try lia; [reflexivity|]. do 2 f_equal. lia.
      + now rewrite as_elem_bad.
    - unfold lists_of, type_of. rewrite nth_error_map. destruct (nth_error s j) as [w|] eqn:E.
      2: { split; [intros (_ & _ & _ & x & Hx & _); discriminate|split; [intros (_ & _ & _ & x & Hx & _); discriminate|reflexivity]]. }
      cbn [option_map]. destruct (Nat.eqb_spec i0 j) as [Ej|Ej]; cbn [orb]; [split; [tauto|split; [tauto|reflexivity]]|].
      destruct (Nat.leb_spec pos (length m)) as [L|L]; cbn [orb negb]; [|split; [lia|split; [lia|reflexivity]]].
      destruct (Nat.leb_spec first last) as [L2|L2]; cbn [orb negb]; [|split; [lia|split; [lia|reflexivity]]].
      destruct (Nat.leb_spec last (length (v_elems w))) as [L3|L3]; cbn [orb negb]; [|split; [intros (_ & _ & _ & x & [= <-] & Hx); lia|split; [intros (_ & _ & _ & x & [= <-] & Hx); lia|reflexivity]]].
      split; [|split].
      + intros _ T. destruct w as [[u q]|]; [|discriminate]. injection T as ->. rewrite as_list_ok. cbn [rbind]. eexists; split; [reflexivity|].
        intros k. exists (map (emb t) q). split; [reflexivity|]. cbn in L3. rewrite map_length in L3.
        rewrite !ne_map, !ne_app, !ne_firstn, !ne_skipn, !firstn_length, skipn_length. replace (Nat.min pos (length m)) with pos by lia.
        replace (Nat.min (last - first) (length q - first)) with (last - first) by lia.
        destruct (Nat.ltb_spec k pos); [reflexivity|]. destruct (Nat.ltb_spec (k - pos) (last - first)), (Nat.ltb_spec k (pos + (last - first))); try lia; [reflexivity|]. do 2 f_equal. lia.
      + intros _ T. destruct w as [[u q]|]; [|reflexivity]. cbn. destruct (f_dec F u t) as [->|]; [destruct T; reflexivity|reflexivity].
      + intros H. destruct H. repeat split; try assumption. eauto.
    - destruct (Nat.leb_spec first last) as [L|L]; cbn [andb]; [|split; [lia|split; [lia|reflexivity]]].
      destruct (Nat.leb_spec last (length m)) as [L2|L2]; [|split; [lia|split; [lia|reflexivity]]]. split; [|split; [tauto|lia]].
      intros _ _. eexists; split; [reflexivity|]. intros k. rewrite !ne_map, !ne_app, !ne_firstn, !ne_skipn, !firstn_length. replace (Nat.min first (length m)) with first by lia.
      destruct (Nat.ltb_spec k first); [reflexivity|]. do 2 f_equal. lia.
    - split; [|split; tauto]. intros _ _. eexists; split; [reflexivity|]. intros k. destruct k; reflexivity.
  Qed.

  Lemma step_target (s : vstate F) o i : target o = Some i -> vstep s o = match (do w <- vec_at s i ; modify s w o) with Ok w => VDone (upd s i w) | Throw e => VThrown e s | UB => VUndef F end.
  Proof. destruct o; cbn [target]; try discriminate; intros [= ->]; reflexivity. Qed.

  Lemma modifiers (s : vstate F) i w t l o : nth_error s i = Some w -> holds_list w t l -> changes o i ->
    (defined (lists_of s) l o -> well_typed (type_of s) t o ->
      exists w' l', vstep s o = VDone (upd s i w') /\ holds_list w' t l' /\ forall k, elem_after (lists_of s) t l o k (nth_error l' k)) /\
    (defined (lists_of s) l o -> ~ well_typed (type_of s) t o -> vstep s o = VThrown BadCast s) /\
    (~ defined (lists_of s) l o -> vstep s o = VUndef F).
  Proof.
    intros Hw (m & -> & ->) Hc. assert (Ht : target o = Some i) by (destruct o; cbn in Hc; try contradiction; subst; reflexivity). rewrite (step_target _ _ Ht). unfold vec_at. rewrite Hw. cbn [rbind modify]. destruct (@modify_ok s t m o i Ht) as (A & B & C).
    split; [|split].
    - intros H1 H2. destruct (A H1 H2) as (m' & E & H). rewrite E. cbn [rbind]. eexists _, _. split; [reflexivity|]. split; [exists m'; split; reflexivity|exact H].
    - intros H1 H2. now rewrite B.
    - intros H. now rewrite C.
  Qed.

  Lemma permute_ok (w : vec F) t l perm rep : holds_list w t l -> a_permutation perm (length rep) -> list_sum rep = length l ->
    exists w' l', v_permute w perm rep = Ok w' /\ holds_list w' t l' /\ permuted l l' perm rep.
  Proof.
    intros (m & -> & ->) P E. rewrite map_length in E.
    destruct (@sections_ok _ m rep perm (proj2 (proj2 P)) ltac:(intros d Hd; rewrite <- E; now apply sum_firstn) (repeat (qe (f_grp F t)) (length m)) 0) as (m' & E1 & L & _ & N).
    { rewrite repeat_length, (extent_perm _ P), E. cbn. lia. }
    exists (Some (existT _ t m')), (map (emb t) m'). cbn. rewrite E1. split; [reflexivity|]. split; [exists m'; auto|]. split.
    - rewrite !map_length, L. apply repeat_length.
    - intros a d i Ha Hi. rewrite !ne_map. f_equal. rewrite extent_seq; [apply (N a d i Ha Hi)|].
      assert (Hd : d < length rep) by (destruct P as (_ & _ & P3); rewrite Forall_forall in P3; apply P3; eapply nth_error_In; eauto). lia.
  Qed.

  Lemma eqb_ok (G : abgroup) (a b : list G) : vals_eqb (qeqb G) a b = true <-> a = b.
  Proof.
    revert b; induction a as [|x a IH]; intros [|y b]; cbn; try (split; [discriminate|discriminate]); [split; reflexivity|].
    rewrite Bool.andb_true_iff, IH, (qeqb_spec G). split; [intros [-> ->]; reflexivity|intros [= -> ->]; auto].
  Qed.
  Lemma emb_inj t (a b : list (f_grp F t)) : map (emb t) a = map (emb t) b -> a = b.
  Proof.
    revert b; induction a as [|x a IH]; intros [|y b]; cbn; try discriminate; auto. intros H. injection H as H1 H2.
    apply (inj_pair2_eq_dec _ (f_dec F)) in H1. f_equal; auto.
  Qed.
  Lemma eq_ok (a b : vec F) t u l m : holds_list a t l -> holds_list b u m ->
    (t = u -> exists r, v_eq a b = Ok r /\ (r = true <-> l = m)) /\ (t <> u -> v_eq a b = Throw BadCast).
  Proof.
    intros (x & -> & ->) (y & -> & ->). split.
    - intros ->. cbn [v_eq]. rewrite as_list_ok. cbn [rbind]. eexists; split; [reflexivity|]. rewrite eqb_ok. split; [intros ->; reflexivity|apply emb_inj].
    - intros H. cbn. destruct (f_dec F u t) as [e|]; [congruence|reflexivity].
  Qed.
  (** ** Constructors *)
  Lemma push_fold t : forall (l : list qv) (m : list (f_grp F t)), Forall (of_type t) l ->
    exists m', fold_left (fun w v => do w <- w ; v_push w v) l (Ok (Some (existT _ t m))) = Ok (Some (existT _ t m')) /\ map (emb t) m' = map (emb t) m ++ l.
  Proof.
    induction l as [|v l IH]; intros m H; cbn [fold_left].
    - exists m. rewrite app_nil_r. auto.
    - apply Forall_cons_iff in H. destruct H as [Hv Hl]. destruct (as_elem_ok Hv) as (x & -> & E). cbn [rbind v_push]. rewrite E. cbn [rbind].
      destruct (IH (m ++ [x]) Hl) as (m' & E1 & E2). exists m'. split; [exact E1|]. rewrite E2, map_app, <- app_assoc. reflexivity.
  Qed.
  Lemma fold_throw (l : list qv) e : fold_left (fun w v => do w <- w ; v_push w v) l (Throw e) = Throw e.
  Proof. induction l; auto. Qed.
  Lemma push_fold_bad t : forall (l : list qv) (m : list (f_grp F t)), ~ Forall (of_type t) l ->
    fold_left (fun w v => do w <- w ; v_push w v) l (Ok (Some (existT _ t m))) = Throw BadCast.
  Proof.
    induction l as [|v l IH]; intros m H; cbn [fold_left]; [destruct H; constructor|]. cbn [rbind v_push].
    destruct (of_type_dec t v) as [T|T].
    - destruct (as_elem_ok T) as (x & -> & E). rewrite E. cbn [rbind]. apply IH. intros Hl. apply H. constructor; auto.
    - rewrite as_elem_bad by assumption. cbn [rbind]. apply fold_throw.
  Qed.
  Lemma init_ok (v : qv) l : (Forall (of_type (projT1 v)) l -> exists w, v_init (v :: l) = Ok w /\ holds_list w (projT1 v) (v :: l)) /\
    (~ Forall (of_type (projT1 v)) l -> v_init (v :: l) = Throw BadCast).
  Proof.
    destruct v as [t x]. cbn [projT1 v_init v_count repeat]. split; intros H.
    - destruct (@push_fold t (existT _ t x :: l) []) as (m & E & Em); [constructor; [reflexivity|assumption]|]. exists (Some (existT _ t m)). split; [exact E|]. exists m. cbn in Em. auto.
    - apply push_fold_bad. intros G. apply H. now inversion G.
  Qed.
  Lemma count_ok n (v : qv) : holds_list (v_count n v) (projT1 v) (repeat v n).
  Proof.
    destruct v as [t x]. exists (repeat x n). split; [reflexivity|]. cbn. induction n as [|n IH]; cbn; [reflexivity|now rewrite IH].
  Qed.
  Lemma copy_ok (w : vec F) t l : holds_list w t l -> v_copy w = Ok w.
  Proof. intros (m & -> & _). reflexivity. Qed.
  Lemma read_ok (w : vec F) t l : holds_list w t l -> v_elems w = l /\ v_size w = Ok (length l) /\ v_loop w = Ok l /\ Forall (of_type t) l /\
    forall k, v_at w k = match nth_error l k with Some x => Ok x | None => Throw OutOfRange end /\ (forall x, nth_error l k = Some x -> v_index w k = Ok x /\ v_index_const w k = Ok x).
  Proof.
    intros (m & -> & ->). split; [reflexivity|]. split; [cbn; now rewrite map_length|]. split; [reflexivity|]. split; [apply Forall_map; apply Forall_forall; intros; reflexivity|].
    intros k. cbn. rewrite ne_map. destruct (nth_error m k) as [y|]; cbn; split; auto; [intros x [= <-]; auto|discriminate].
  Qed.
End QP.
