(** Lemmas on the model of type-erased quantities. *)
From Coq Require Import Lia Eqdep_dec.
From Verif Require Import Base Quantity Erased SpecErased DmrgProofs.
Set Implicit Arguments.

Lemma list_ext {A} (l l' : list A) : (forall n, nth_error l n = nth_error l' n) -> l = l'.
Proof.
  revert l'; induction l as [|a l IH]; intros [|b l'] H; auto; try (specialize (H 0); discriminate).
  f_equal; [specialize (H 0); cbn in H; congruence|apply IH; intros n; apply (H (S n))].
Qed.
Lemma nth_error_lt {A} (l : list A) n a : nth_error l n = Some a -> n < length l.
Proof. intros H. apply nth_error_Some. congruence. Qed.
Lemma nth_error_snoc {A} (l : list A) a n : nth_error (l ++ [a]) n = if n =? length l then Some a else nth_error l n.
Proof.
  destruct (Nat.eqb_spec n (length l)) as [->|H].
  - rewrite nth_error_app2, Nat.sub_diag by lia; reflexivity.
  - destruct (Nat.lt_ge_cases n (length l)).
    + now rewrite nth_error_app1.
    + rewrite nth_error_app2 by lia. rewrite (proj2 (nth_error_None l n)) by lia. destruct (n - length l) as [|k] eqn:E; [lia|]. now destruct k.
Qed.

Section EP.
  Variable F : family.
  Notation qv := (qv F). Notation st := (st F).

  (** ** Casts *)
  Lemma cast_same t (a : f_grp F t) : cast t (existT _ t a) = Some a.
  Proof.
    unfold cast; cbn. destruct (f_dec F t t) as [e|n]; [|congruence].
    rewrite (UIP_dec (f_dec F) e eq_refl). reflexivity.
  Qed.
  Lemma virt_same {A} (f : forall t, f_grp F t -> f_grp F t -> A) t (a b : f_grp F t) : virt f (existT _ t a) (existT _ t b) = Ok (f t a b).
  Proof. unfold virt. cbn. now rewrite cast_same. Qed.
  Lemma virt_other {A} (f : forall t, f_grp F t -> f_grp F t -> A) (v w : qv) : ~ same v w -> virt f v w = Throw BadCast.
  Proof.
    intros H. unfold virt, cast. destruct (f_dec F (projT1 w) (ty v)) as [e|n]; [|reflexivity].
    destruct H. unfold same. now rewrite e.
  Qed.
  Lemma same_dec (v w : qv) : {same v w} + {~ same v w}.
  Proof. apply (f_dec F). Qed.
  Lemma same_inv (v w : qv) : same v w -> exists t (a b : f_grp F t), v = existT _ t a /\ w = existT _ t b.
  Proof. destruct v as [t a], w as [t' b]. unfold same; cbn. intros <-. eauto. Qed.
  Lemma assign_same (v w : qv) : same v w -> virt (fun t _ y => existT (fun t => f_grp F t) t y) v w = Ok w.
  Proof. intros H. destruct (same_inv H) as (t & a & b & -> & ->). now rewrite virt_same. Qed.
  Lemma op_same (v w : qv) : same v w -> exists x, q_op v w = Ok x /\ product v w x.
  Proof. intros H. destruct (same_inv H) as (t & a & b & -> & ->). unfold q_op. rewrite virt_same. eexists; split; [reflexivity|]. exists t, a, b; auto. Qed.
  Lemma op_other (v w : qv) : ~ same v w -> q_op v w = Throw BadCast.
  Proof. apply virt_other. Qed.
  Lemma product_op (v w x : qv) : product v w x -> q_op v w = Ok x.
  Proof. intros (t & a & b & -> & -> & ->). unfold q_op. now rewrite virt_same. Qed.
  Lemma product_same (v w x : qv) : product v w x -> same v w.
  Proof. intros (t & a & b & -> & -> & ->). reflexivity. Qed.
  Lemma inverse_eq (v x : qv) : inverse_of v x <-> x = q_inv v.
  Proof. split; [intros (t & a & -> & ->); reflexivity|intros ->; destruct v as [t a]; exists t, a; auto]. Qed.
  Lemma neutral_eq (v x : qv) : neutral_of v x <-> x = q_neutral v.
  Proof. split; [intros (t & a & -> & ->); reflexivity|intros ->; destruct v as [t a]; exists t, a; auto]. Qed.

  (** ** Cells and variables *)
  Lemma load_ok (s : st) p v : load s p = Ok v <-> nth_error (heap s) p = Some (Some v).
  Proof. unfold load. destruct (nth_error (heap s) p) as [[u|]|]; split; congruence. Qed.
  Lemma addr_var (s : st) i p : addr s (Var i) = Ok p <-> nth_error (vars s) i = Some (Some p).
  Proof. cbn; unfold own. destruct (nth_error (vars s) i) as [[u|]|]; cbn; split; congruence. Qed.
  Lemma nth_values (s : st) i : nth_error (values s) i = option_map (holds s) (nth_error (vars s) i).
  Proof. apply nth_error_map. Qed.
  Lemma values_len (s : st) : length (values s) = length (vars s).
  Proof. apply map_length. Qed.

  Section Owned.
    Variable s : st.
    Hypothesis Ho : owned s.
    Lemma own_live i p : nth_error (vars s) i = Some (Some p) -> exists v, nth_error (heap s) p = Some (Some v).
    Proof. intros H. apply (proj1 Ho). eauto. Qed.
    Lemma own_lt i p : nth_error (vars s) i = Some (Some p) -> p < length (heap s).
    Proof. intros H. destruct (own_live _ H) as [v Hv]. eapply nth_error_lt; eauto. Qed.
    Lemma own_holds i p v : nth_error (vars s) i = Some (Some p) -> nth_error (heap s) p = Some (Some v) -> at_ (values s) i v.
    Proof. intros H1 H2. unfold at_. rewrite nth_values, H1. cbn. now rewrite H2. Qed.
    Lemma at_own i v : at_ (values s) i v -> exists p, nth_error (vars s) i = Some (Some p) /\ nth_error (heap s) p = Some (Some v).
    Proof.
      unfold at_. rewrite nth_values. destruct (nth_error (vars s) i) as [[p|]|] eqn:E; cbn; try discriminate.
      destruct (own_live _ E) as [u Hu]. rewrite Hu. intros [= ->]. eauto.
    Qed.
    Lemma moved_own i : nth_error (values s) i = Some None <-> nth_error (vars s) i = Some None.
    Proof.
      rewrite nth_values. destruct (nth_error (vars s) i) as [[p|]|] eqn:E; cbn; try (split; congruence).
      destruct (own_live _ E) as [u Hu]. rewrite Hu. split; congruence.
    Qed.
    Lemma look i : (exists p v, addr s (Var i) = Ok p /\ load s p = Ok v /\ at_ (values s) i v /\ nth_error (vars s) i = Some (Some p)) \/
      (addr s (Var i) = UB /\ forall v, ~ at_ (values s) i v).
    Proof.
      destruct (nth_error (vars s) i) as [[p|]|] eqn:E.
      - left. destruct (own_live _ E) as [v Hv]. exists p, v. repeat split; [now apply addr_var|now apply load_ok|eapply own_holds; eauto].
      - right. split; [cbn; unfold own; now rewrite E|]. intros v H. destruct (at_own H) as (p & Hp & _). congruence.
      - right. split; [cbn; unfold own; now rewrite E|]. intros v H. destruct (at_own H) as (p & Hp & _). congruence.
    Qed.
    Lemma owns i : (exists c, own s i = Ok c /\ nth_error (vars s) i = Some c /\ nth_error (values s) i = Some (holds s c)) \/
      (own s i = UB /\ forall c, nth_error (values s) i <> Some c).
    Proof.
      unfold own. rewrite nth_values. destruct (nth_error (vars s) i) as [c|] eqn:E; [left; exists c; auto|right; split; [reflexivity|cbn; congruence]].
    Qed.

    (** Writing in a live cell. *)
    Lemma put_owned p v x : nth_error (heap s) p = Some (Some v) -> owned (put s p (Some x)).
    Proof.
      intros Hp. pose proof (nth_error_lt _ _ Hp) as L. split; [|exact (proj2 Ho)]. intros q; cbn. rewrite nth_error_upd by exact L.
      destruct (Nat.eqb_spec q p) as [->|]; [|apply Ho]. split; [intros _; apply (proj1 Ho); eauto|eauto].
    Qed.
    Lemma put_values i p x : nth_error (vars s) i = Some (Some p) -> values (put s p (Some x)) = upd (values s) i (Some x).
    Proof.
      intros Hi. pose proof (own_lt _ Hi) as L. apply list_ext. intros k.
      rewrite nth_error_upd by (rewrite values_len; eapply nth_error_lt; eauto). rewrite !nth_values; cbn.
      destruct (Nat.eqb_spec k i) as [->|Hk].
      - rewrite Hi; cbn. rewrite nth_error_upd, Nat.eqb_refl by exact L. reflexivity.
      - destruct (nth_error (vars s) k) as [[q|]|] eqn:E; cbn; auto. rewrite nth_error_upd by exact L.
        destruct (Nat.eqb_spec q p) as [->|]; auto. destruct Hk. eapply (proj2 Ho); eauto.
    Qed.
    (** A new variable with a new cell. *)
    Lemma create_owned v : owned (new_var (alloc s v) (Some (fresh s))).
    Proof.
      split; cbn.
      - intros p. rewrite nth_error_snoc. unfold fresh. destruct (Nat.eqb_spec p (length (heap s))) as [->|Hp].
        + split; [|eauto]. intros _. exists (length (vars s)). now rewrite nth_error_snoc, Nat.eqb_refl.
        + rewrite (proj1 Ho p). split; intros [i Hi]; exists i.
          * rewrite nth_error_snoc. pose proof (nth_error_lt _ _ Hi). destruct (Nat.eqb_spec i (length (vars s))); [lia|assumption].
          * rewrite nth_error_snoc in Hi. destruct (i =? length (vars s)); [congruence|assumption].
      - intros i j p. rewrite !nth_error_snoc. unfold fresh.
        destruct (Nat.eqb_spec i (length (vars s))), (Nat.eqb_spec j (length (vars s))); intros H1 H2; try congruence.
        + pose proof (own_lt _ H2). assert (p = length (heap s)) by congruence. lia.
        + pose proof (own_lt _ H1). assert (p = length (heap s)) by congruence. lia.
        + eapply (proj2 Ho); eauto.
    Qed.
    Lemma holds_alloc v i c : nth_error (vars s) i = Some c -> holds (alloc s v) c = holds s c.
    Proof.
      intros H. destruct c as [p|]; auto. pose proof (own_lt _ H). cbn. rewrite nth_error_app1 by assumption. reflexivity.
    Qed.
    Lemma alloc_values v : values (alloc s v) = values s.
    Proof.
      apply list_ext. intros k. rewrite !nth_values; cbn [vars alloc]. destruct (nth_error (vars s) k) as [c|] eqn:E; auto.
      cbn [option_map]. now rewrite (holds_alloc _ _ E).
    Qed.
    Lemma new_var_values (s0 : st) (c : option nat) : values (new_var s0 c) = values s0 ++ [holds s0 c].
    Proof. unfold values; cbn. rewrite map_app. reflexivity. Qed.
    Lemma create_values v : values (new_var (alloc s v) (Some (fresh s))) = values s ++ [Some v].
    Proof. rewrite new_var_values, alloc_values. cbn. unfold fresh. now rewrite nth_error_snoc, Nat.eqb_refl. Qed.
    Lemma set_var_values (s0 : st) i (c : option nat) : i < length (vars s0) -> values (set_var s0 i c) = upd (values s0) i (holds s0 c).
    Proof.
      intros L. apply list_ext. intros k. rewrite nth_error_upd by now rewrite values_len. rewrite !nth_values; cbn. rewrite nth_error_upd by assumption.
      destruct (k =? i); auto.
    Qed.
    (** Moving a variable out. *)
    Lemma move_owned i c : nth_error (vars s) i = Some c -> owned (new_var (set_var s i None) c).
    Proof.
      intros Hi. pose proof (nth_error_lt _ _ Hi) as L.
      assert (Q : forall k p, nth_error (upd (vars s) i None ++ [c]) k = Some (Some p) <-> (k = length (vars s) /\ c = Some p) \/ (k <> i /\ nth_error (vars s) k = Some (Some p))).
      { intros k p. rewrite nth_error_snoc, upd_length by assumption. rewrite nth_error_upd by assumption.
        destruct (Nat.eqb_spec k (length (vars s))) as [->|N].
        - split; [intros [= ->]; auto|intros [[_ ->]|[_ H]]; auto; apply nth_error_lt in H; lia].
        - destruct (Nat.eqb_spec k i) as [->|]; split; try congruence; try tauto; intros [[]|[]]; congruence. }
      split; cbn.
      - intros p. rewrite (proj1 Ho p). split; intros [k Hk].
        + destruct (Nat.eq_dec k i) as [->|N]; [exists (length (vars s))|exists k]; apply Q; [left; split; congruence|right; auto].
        + apply Q in Hk. destruct Hk as [[_ ->]|[_ H]]; eauto.
      - intros k l p Hk Hl. apply Q in Hk. apply Q in Hl. destruct Hk as [[-> ->]|[N1 H1]], Hl as [[-> E]|[N2 H2]]; auto.
        + destruct N2. eapply (proj2 Ho); eauto.
        + destruct N1. subst c. eapply (proj2 Ho); eauto.
        + eapply (proj2 Ho); eauto.
    Qed.
    Lemma move_values i c : nth_error (vars s) i = Some c -> values (new_var (set_var s i None) c) = upd (values s) i None ++ [holds s c].
    Proof. intros Hi. rewrite new_var_values, set_var_values by (eapply nth_error_lt; eauto). reflexivity. Qed.
    (** Exchanging two variables. *)
    Lemma exchange_owned i j c d : nth_error (vars s) i = Some c -> nth_error (vars s) j = Some d -> owned (set_var (set_var s i d) j c).
    Proof.
      intros Hi Hj. pose proof (nth_error_lt _ _ Hi) as Li. pose proof (nth_error_lt _ _ Hj) as Lj.
      assert (Q : forall k, nth_error (upd (upd (vars s) i d) j c) k = nth_error (vars s) (if k =? j then i else if k =? i then j else k)).
      { intros k. rewrite nth_error_upd by now rewrite upd_length. rewrite nth_error_upd by assumption. destruct (k =? j), (k =? i); congruence. }
      assert (I : forall k, (if (if k =? j then i else if k =? i then j else k) =? j then i else if (if k =? j then i else if k =? i then j else k) =? i then j else (if k =? j then i else if k =? i then j else k)) = k).
      { intros k. destruct (Nat.eqb_spec k j); [destruct (Nat.eqb_spec i j); [congruence|rewrite Nat.eqb_refl; congruence]|].
        destruct (Nat.eqb_spec k i); [rewrite Nat.eqb_refl; congruence|].
        destruct (Nat.eqb_spec k j); [congruence|]. destruct (Nat.eqb_spec k i); congruence. }
      split; cbn.
      - intros p. rewrite (proj1 Ho p). split; intros [k Hk].
        + exists (if k =? j then i else if k =? i then j else k). now rewrite Q, I.
        + rewrite Q in Hk. eauto.
      - intros k l p Hk Hl. rewrite Q in Hk, Hl. rewrite <- (I k), <- (I l). rewrite (proj2 Ho _ _ _ Hk Hl). reflexivity.
    Qed.
    Lemma exchange_values i j c d : nth_error (vars s) i = Some c -> nth_error (vars s) j = Some d ->
      values (set_var (set_var s i d) j c) = upd (upd (values s) i (holds s d)) j (holds s c).
    Proof.
      intros Hi Hj. pose proof (nth_error_lt _ _ Hi). pose proof (nth_error_lt _ _ Hj).
      rewrite set_var_values by (cbn; now rewrite upd_length). rewrite set_var_values by assumption. reflexivity.
    Qed.
    (** A variable drops its cell, perhaps for a new one. *)
    Definition new_cell (n : option qv) : option nat := match n with Some _ => Some (length (heap s)) | None => None end.
    Lemma release_owned (s' : st) i c (n : option qv) : nth_error (vars s) i = Some c ->
      (forall k, nth_error (vars s') k = if k =? i then Some (new_cell n) else nth_error (vars s) k) ->
      heap s' = heap s ++ (match n with Some v => [Some v] | None => [] end) ->
      exists s'', release s' c = Done s'' /\ owned s'' /\ vars s'' = vars s' /\ refs s'' = refs s' /\ values s'' = upd (values s) i n.
    Proof.
      intros Hi Hv Hh. pose proof (nth_error_lt _ _ Hi) as L.
      set (s'' := match c with Some p => put s' p None | None => s' end).
      assert (E : release s' c = Done s'').
      { subst s''. destruct c as [p|]; [|reflexivity]. cbn. destruct (own_live _ Hi) as [v Hp].
        assert (Hl : load s' p = Ok v) by (apply load_ok; rewrite Hh, nth_error_app1 by (eapply nth_error_lt; eauto); assumption). now rewrite Hl. }
      assert (V : vars s'' = vars s') by (subst s''; now destruct c). assert (R : refs s'' = refs s') by (subst s''; now destruct c).
      assert (C : forall q, nth_error (heap s'') q = if (match c with Some p => q =? p | None => false end) then Some None else
        match n with Some v => if q =? length (heap s) then Some (Some v) else nth_error (heap s) q | None => nth_error (heap s) q end).
      { intros q. assert (Hq : nth_error (heap s') q = match n with Some v => if q =? length (heap s) then Some (Some v) else nth_error (heap s) q | None => nth_error (heap s) q end).
        { rewrite Hh. destruct n; [apply nth_error_snoc|now rewrite app_nil_r]. }
        subst s''. destruct c as [p|]; [|exact Hq]. cbn. rewrite nth_error_upd, Hq; [reflexivity|]. pose proof (own_lt _ Hi). rewrite Hh, app_length. lia. }
      exists s''. split; [exact E|]. split; [split|split; [exact V|split; [exact R|]]].
      - intros q. rewrite C, V. destruct (match c with Some p => q =? p | None => false end) eqn:Eq.
        + destruct c as [p|]; [|discriminate]. apply Nat.eqb_eq in Eq; subst q. pose proof (own_lt _ Hi). split; [intros [u Hu]; discriminate|]. intros [k Hk]. rewrite Hv in Hk.
          destruct (Nat.eqb_spec k i) as [Ei|N]; [destruct n; cbn in Hk; try discriminate; injection Hk; lia|]. exfalso; apply N; eapply (proj2 Ho); eauto.
        + assert (N : c <> Some q) by (intros ->; now rewrite Nat.eqb_refl in Eq).
          destruct n as [v|]; cbn in *.
          * destruct (Nat.eqb_spec q (length (heap s))) as [->|Nq].
            -- split; [|eauto]. intros _. exists i. now rewrite Hv, Nat.eqb_refl.
            -- rewrite (proj1 Ho q). split; intros [k Hk]; exists k; [rewrite Hv|rewrite Hv in Hk]; destruct (Nat.eqb_spec k i); congruence.
          * rewrite (proj1 Ho q). split; intros [k Hk]; exists k; [rewrite Hv|rewrite Hv in Hk]; destruct (Nat.eqb_spec k i); congruence.
      - rewrite V. intros k l q Hk Hl. rewrite Hv in Hk, Hl.
        destruct (Nat.eqb_spec k i) as [->|Nk], (Nat.eqb_spec l i) as [->|Nl]; auto.
        + destruct n; cbn in Hk; [|discriminate]. apply own_lt in Hl. injection Hk; lia.
        + destruct n; cbn in Hl; [|discriminate]. apply own_lt in Hk. injection Hl; lia.
        + eapply (proj2 Ho); eauto.
      - apply list_ext. intros k. rewrite nth_error_upd by now rewrite values_len. rewrite !nth_values, V, Hv.
        destruct (Nat.eqb_spec k i) as [->|Nk].
        + cbn. destruct n as [v|]; cbn; [|reflexivity]. rewrite C, Nat.eqb_refl.
          destruct c as [p|]; [|reflexivity]. pose proof (own_lt _ Hi). destruct (Nat.eqb_spec (length (heap s)) p); [lia|reflexivity].
        + destruct (nth_error (vars s) k) as [[q|]|] eqn:Ek; auto. cbn. rewrite C.
          assert (N : c <> Some q) by (intros ->; destruct Nk; eapply (proj2 Ho); eauto).
          replace (match c with Some p => q =? p | None => false end) with false by (destruct c as [p|]; auto; symmetry; apply Nat.eqb_neq; congruence).
          destruct n; auto. pose proof (own_lt _ Ek). destruct (Nat.eqb_spec q (length (heap s))); [lia|reflexivity].
    Qed.
    (** A cell that was freed. *)
    Lemma junk_owned : owned (mkS (heap s ++ [None]) (vars s) (refs s)) /\ values (mkS (heap s ++ [None]) (vars s) (refs s)) = values s.
    Proof.
      split; [split; [|exact (proj2 Ho)]|].
      - intros p; cbn. rewrite nth_error_snoc. destruct (Nat.eqb_spec p (length (heap s))) as [->|]; [|apply Ho].
        split; [intros [v Hv]; congruence|]. intros [i Hi]. apply own_lt in Hi. lia.
      - apply list_ext. intros k. rewrite !nth_values; cbn [vars]. destruct (nth_error (vars s) k) as [[p|]|] eqn:E; auto. cbn.
        rewrite nth_error_app1 by (eapply own_lt; eauto). reflexivity.
    Qed.
  End Owned.
End EP.
