(** The operations on type-erased quantities: ownership, values and references. *)
From Coq Require Import Lia.
From Verif Require Import Base Quantity Erased SpecErased DmrgProofs ErasedProofs.
Set Implicit Arguments.

Section ET.
  Variable F : family.
  Notation qv := (qv F). Notation st := (st F).

  (** ** Temporaries *)
  Lemma upd_snoc {A} (l : list A) a b : upd (l ++ [a]) (length l) b = l ++ [b].
  Proof.
    apply list_ext. intros n. rewrite nth_error_upd by (rewrite app_length; cbn; lia). rewrite !nth_error_snoc. destruct (n =? length l); reflexivity.
  Qed.
  Lemma upd_snoc2 {A} (l : list A) a c b : upd ((l ++ [a]) ++ [c]) (length l) b = (l ++ [b]) ++ [c].
  Proof.
    apply list_ext. intros n. rewrite nth_error_upd by (rewrite !app_length; cbn; lia). rewrite !nth_error_snoc, !app_length. cbn.
    destruct (Nat.eqb_spec n (length l)) as [->|]; [|reflexivity]. destruct (Nat.eqb_spec (length l) (length l + 1)); [lia|reflexivity].
  Qed.
  Lemma temp_done (s : st) v work x : work (alloc s v) (fresh s) = Done (put (alloc s v) (fresh s) (Some x)) ->
    via_temporary s v work = Done (new_var (alloc (mkS (heap s ++ [None]) (vars s) (refs s)) x) (Some (fresh (mkS (heap s ++ [None]) (vars s) (refs s))))).
  Proof.
    intros W. unfold via_temporary. rewrite W. unfold put; cbn. unfold fresh; cbn. rewrite upd_snoc.
    unfold load; cbn. rewrite nth_error_snoc, Nat.eqb_refl. cbn. unfold load; cbn. rewrite nth_error_snoc, nth_error_snoc, Nat.eqb_refl, app_length. cbn.
    destruct (Nat.eqb_spec (length (heap s)) (length (heap s) + 1)); [lia|]. unfold put, new_var, alloc; cbn. rewrite upd_snoc2, !app_length. reflexivity.
  Qed.
  Lemma temp_thrown (s : st) v work e : work (alloc s v) (fresh s) = Thrown e (alloc s v) ->
    via_temporary s v work = Thrown e (mkS (heap s ++ [None]) (vars s) (refs s)).
  Proof.
    intros W. unfold via_temporary. rewrite W. cbn. unfold load; cbn. unfold fresh. rewrite nth_error_snoc, Nat.eqb_refl. cbn. unfold put; cbn. now rewrite upd_snoc.
  Qed.

  (** ** The exceptions and the values of every operation on variables *)
  Definition meets (s : st) (o : op F) (r : outcome F) : Prop :=
    match r with
    | Done s' => owned s' /\ refs s' = refs s /\ vstep (values s) o None (values s')
    | Thrown e s' => owned s' /\ refs s' = refs s /\ vstep (values s) o (Some e) (values s')
    | Undef _ => forall e w, ~ vstep (values s) o e w
    end.

  Ltac lk Ho i := let p := fresh "p" in let v := fresh "v" in let E1 := fresh "A" in let E2 := fresh "L" in let E3 := fresh "V" in let E4 := fresh "N" in
    destruct (look Ho i) as [(p & v & E1 & E2 & E3 & E4)|[E1 E3]].
  Ltac none := intros ?e ?w ?Hs; inversion Hs; subst;
    repeat match goal with H : forall v, ~ at_ _ _ v |- _ => try (exfalso; eapply H; eassumption); revert H end; intros.

  Lemma meets_both (s : st) o i j f :
    owned s ->
    (forall v u, at_ (values s) i v -> at_ (values s) j u -> match f v u with Ok x => vstep (values s) o None (upd (values s) i (Some x)) | Throw e => vstep (values s) o (Some e) (values s) | UB => False end) ->
    (forall e w, vstep (values s) o e w -> exists v u, at_ (values s) i v /\ at_ (values s) j u) ->
    meets s o (both s (Var i) (Var j) f true).
  Proof.
    intros Ho H1 H2. unfold both. lk Ho i; rewrite A; cbn [rbind].
    2: { intros e w Hs. destruct (H2 _ _ Hs) as (v & u & Hv & _). eapply V; eauto. }
    lk Ho j; rewrite A0; cbn [rbind].
    2: { intros e w Hs. destruct (H2 _ _ Hs) as (v' & u & _ & Hu). eapply V0; eauto. }
    rewrite L; cbn [rbind]. rewrite L0; cbn [rbind]. specialize (H1 _ _ V V0). destruct (f v v0) as [x|e|]; [| |contradiction].
    - split; [|split; [reflexivity|]]; [eapply put_owned; [eassumption|apply load_ok; eassumption]|]. rewrite (put_values Ho i) by assumption. assumption.
    - cbn; auto.
  Qed.
  Lemma meets_move (s : st) i c : owned s -> own s i = Ok c -> exists s', move_out s i = Done s' /\ owned s' /\ refs s' = refs s /\ values s' = upd (values s) i None ++ [holds s c].
  Proof.
    intros Ho H. unfold move_out. rewrite H. cbn. unfold own in H. destruct (nth_error (vars s) i) as [d|] eqn:E; [|discriminate]. injection H as ->.
    eexists; split; [reflexivity|]. split; [apply move_owned; auto|]. split; [reflexivity|apply move_values; auto].
  Qed.
  Lemma upd_upd {A} (l : list A) i a b : i < length l -> upd (upd l i a) i b = upd l i b.
  Proof.
    intros L. apply list_ext. intros n. rewrite !nth_error_upd by (rewrite ?upd_length; auto). destruct (n =? i); reflexivity.
  Qed.
  Lemma at_lt (w : store F) i v : at_ w i v -> i < length w.
  Proof. apply nth_error_lt. Qed.
  Lemma at_fun (w : store F) i v u : at_ w i v -> at_ w i u -> v = u.
  Proof. unfold at_. congruence. Qed.

  Lemma meets_created (s : st) o v : owned s -> vstep (values s) o None (values s ++ [Some v]) -> meets s o (Done (new_var (alloc s v) (Some (fresh s)))).
  Proof. intros Ho H. split; [apply create_owned; auto|]. split; [reflexivity|]. now rewrite create_values. Qed.
  Lemma meets_temp (s : st) o v x work : owned s -> work (alloc s v) (fresh s) = Done (put (alloc s v) (fresh s) (Some x)) ->
    vstep (values s) o None (values s ++ [Some x]) -> meets s o (via_temporary s v work).
  Proof.
    intros Ho W H. rewrite (temp_done _ W). destruct (junk_owned Ho) as [J1 J2].
    split; [apply create_owned; auto|]. split; [reflexivity|]. rewrite create_values by assumption. now rewrite J2.
  Qed.
  Lemma meets_temp_bad (s : st) o v e work : owned s -> work (alloc s v) (fresh s) = Thrown e (alloc s v) ->
    vstep (values s) o (Some e) (values s) -> meets s o (via_temporary s v work).
  Proof. intros Ho W H. rewrite (temp_thrown _ W). destruct (junk_owned Ho) as [J1 J2]. split; [assumption|]. split; [reflexivity|]. now rewrite J2. Qed.

  Lemma copied_cases (s : st) i : owned s -> (exists v, copied s i = Ok v /\ (at_ (values s) i v \/ (nth_error (values s) i = Some None /\ the_one v))) \/
    (copied s i = UB /\ forall c, nth_error (values s) i <> Some c).
  Proof.
    intros Ho. unfold copied. destruct (owns s i) as [(c & E & Ec & Ev)|[E Hn]]; rewrite E; cbn [rbind]; [left|right; auto].
    destruct c as [p|].
    - destruct (own_live Ho _ Ec) as [v Hv]. exists v. split; [now apply load_ok|left]. eapply own_holds; eauto.
    - exists (q_default F). split; [reflexivity|right]. split; [exact Ev|reflexivity].
  Qed.

  Lemma step_plain (s : st) o : owned s -> plain o -> meets s o (step s o).
  Proof.
    intros Ho Hp. destruct o; cbn [step plain plain_arg] in *;
      repeat match reverse goal with a : arg |- _ => destruct a; cbn [plain_arg] in Hp; [|tauto] end; try tauto.
    - apply meets_created; auto; constructor.
    - apply meets_created; auto; constructor; reflexivity.
    - lk Ho i; rewrite A; cbn [rbind]; [rewrite L|]; cbn; [|none]. apply meets_created; auto; constructor; auto.
    - destruct (copied_cases i Ho) as [(v & E & Hv)|[E Hn]]; rewrite E; cbn.
      + apply meets_created; auto. destruct Hv as [Hv|[Hv1 Hv2]]; [now constructor|now apply V_copy_moved].
      + intros e w Hs; inversion Hs; subst; [eapply Hn; eauto|eapply Hn; eauto].
    - destruct (owns s i) as [(c & E & Ec & Ev)|[E Hn]].
      + destruct (meets_move _ Ho E) as (s' & -> & O & R & V). split; [auto|split; [auto|]]. rewrite V. now constructor.
      + unfold move_out. rewrite E. intros e w Hs; inversion Hs; subst. eapply Hn; eauto.
    - apply meets_both; auto.
      + intros v u Hv Hu. destruct (same_dec v u) as [Hs|Hs]; [rewrite assign_same by auto|rewrite virt_other by auto]; econstructor; eauto.
      + intros e w Hs; inversion Hs; subst; eauto.
    - unfold exchange. destruct (owns s i) as [(c & E & Ec & Ev)|[E Hn]]; rewrite E; cbn [the]; [|intros e w Hs; inversion Hs; subst; eapply Hn; eauto].
      destruct (owns s j) as [(d & E' & Ec' & Ev')|[E' Hn']]; rewrite E'; cbn [the]; [|intros e w Hs; inversion Hs; subst; eapply Hn'; eauto].
      split; [apply exchange_owned; auto|]. split; [reflexivity|]. rewrite exchange_values by auto. now constructor.
    - lk Ho i0; rewrite A; cbn [rbind]; [rewrite L|]; cbn [the]; [|none].
      destruct (owns s i) as [(c & E & Ec & Ev)|[E Hn]]; rewrite E; cbn [the]; [|intros e w Hs; inversion Hs; subst; eapply Hn; eauto].
      destruct (@release_owned _ s Ho (set_var (alloc s v) i (Some (fresh s))) i c (Some v) Ec) as (s'' & -> & O & Vr & R & Vl).
      + intros k. cbn. now rewrite nth_error_upd by (eapply nth_error_lt; eauto).
      + reflexivity.
      + split; [auto|]. split; [now rewrite R|]. rewrite Vl. econstructor; eauto.
    - unfold exchange. destruct (owns s i) as [(c & E & Ec & Ev)|[E Hn]]; rewrite E; cbn [the]; [|intros e w Hs; inversion Hs; subst; eapply Hn; eauto].
      destruct (owns s j) as [(d & E' & Ec' & Ev')|[E' Hn']]; rewrite E'; cbn [the]; [|intros e w Hs; inversion Hs; subst; eapply Hn'; eauto].
      split; [apply exchange_owned; auto|]. split; [reflexivity|]. rewrite exchange_values by auto. now constructor.
    - lk Ho i; rewrite A; cbn [rbind the]; [|none]. lk Ho i0; rewrite A0; cbn [rbind the]; [|none]. rewrite L; cbn [rbind]. rewrite L0; cbn [rbind].
      destruct (same_dec v v0) as [Hs|Hs]; [rewrite assign_same by auto|rewrite virt_other by auto]; cbn [rbind the].
      + assert (O1 : owned (put s p (Some v0))) by (eapply put_owned; [eassumption|apply load_ok; eassumption]).
        assert (P : exists u, nth_error (heap (put s p (Some v0))) p0 = Some (Some u)).
        { eapply own_live; eauto. }
        destruct P as [u Hu]. split; [eapply put_owned; eauto|]. split; [reflexivity|].
        rewrite (put_values O1 i0) by assumption. rewrite (put_values Ho i) by assumption. now constructor.
      + split; [auto|]. split; [reflexivity|]. econstructor; eauto.
    - apply meets_both; auto.
      + intros v u Hv Hu. destruct (same_dec v u) as [Hs|Hs]; [destruct (op_same Hs) as (x & E & Hx); rewrite E|rewrite op_other by auto]; econstructor; eauto.
      + intros e w Hs; inversion Hs; subst; eauto.
    - apply meets_both; auto.
      + intros v u Hv Hu. destruct (same_dec v u) as [Hs|Hs]; [destruct (op_same Hs) as (x & E & Hx); rewrite E|rewrite op_other by auto]; cbn [rbind].
        * destruct c; [econstructor; eauto|]. replace (upd (values s) i (Some v)) with (values s); [econstructor; eauto|].
          apply list_ext. intros n. rewrite nth_error_upd by (eapply at_lt; eauto). destruct (Nat.eqb_spec n i) as [->|]; auto.
        * econstructor; eauto.
      + intros e w Hs; inversion Hs; subst; eauto.
    - lk Ho i; rewrite A; cbn [rbind the]; [rewrite L|none]. cbn [rbind the]. split; [eapply put_owned; [eassumption|apply load_ok; eassumption]|]. split; [reflexivity|].
      rewrite (put_values Ho i) by assumption. econstructor; eauto. now apply inverse_eq.
    - lk Ho i; rewrite A; cbn [rbind the]; [|none]. lk Ho i0; rewrite A0; cbn [rbind the]; [|none]. rewrite L; cbn [rbind the].
      assert (Lp : load (alloc s v) p0 = Ok v0).
      { apply load_ok. cbn. rewrite nth_error_app1 by (eapply own_lt; eauto). now apply load_ok. }
      destruct (same_dec v v0) as [Hs|Hs].
      + destruct (op_same Hs) as (x & E & Hx). apply meets_temp with (x := x); auto; [|econstructor; eauto]. rewrite Lp. cbn [rbind]. rewrite E. reflexivity.
      + apply meets_temp_bad with (e := BadCast); auto; [|econstructor; eauto]. rewrite Lp. cbn [rbind]. rewrite op_other by auto. reflexivity.
    - unfold both. lk Ho i; rewrite A; cbn [rbind andthen]; [|none]. lk Ho j; rewrite A0; cbn [rbind andthen]; [|none]. rewrite L; cbn [rbind]. rewrite L0; cbn [rbind].
      destruct (same_dec v v0) as [Hs|Hs]; [destruct (op_same Hs) as (x & E & Hx); rewrite E|rewrite op_other by auto]; cbn [andthen].
      + assert (O1 : owned (put s p0 (Some x))) by (eapply put_owned; [eassumption|apply load_ok; eassumption]).
        destruct (@meets_move (put s p0 (Some x)) j (Some p0) O1) as (s' & -> & O & R & Vv); [unfold own; cbn [vars put]; now rewrite N0|].
        split; [auto|]. split; [now rewrite R|]. rewrite Vv, (put_values Ho j) by assumption. rewrite upd_upd by (eapply at_lt; eauto).
        cbn [holds put heap]. rewrite nth_error_upd, Nat.eqb_refl by (eapply own_lt; eauto). econstructor; eauto.
      + split; [auto|]. split; [reflexivity|]. econstructor; eauto.
    - unfold both. lk Ho i; rewrite A; cbn [rbind andthen]; [|none]. lk Ho i0; rewrite A0; cbn [rbind andthen]; [|none]. rewrite L; cbn [rbind]. rewrite L0; cbn [rbind].
      destruct (same_dec v v0) as [Hs|Hs]; [destruct (op_same Hs) as (x & E & Hx); rewrite E|rewrite op_other by auto]; cbn [andthen].
      + assert (O1 : owned (put s p (Some x))) by (eapply put_owned; [eassumption|apply load_ok; eassumption]).
        destruct (@meets_move (put s p (Some x)) i (Some p) O1) as (s' & -> & O & R & Vv); [unfold own; cbn [vars put]; now rewrite N|].
        split; [auto|]. split; [now rewrite R|]. rewrite Vv, (put_values Ho i) by assumption. rewrite upd_upd by (eapply at_lt; eauto).
        cbn [holds put heap]. rewrite nth_error_upd, Nat.eqb_refl by (eapply own_lt; eauto). econstructor; eauto.
      + split; [auto|]. split; [reflexivity|]. econstructor; eauto.
    - destruct (copied_cases i Ho) as [(v & E & Hv)|[E Hn]]; rewrite E; cbn [the].
      + apply meets_temp with (x := q_inv v); auto. destruct Hv as [Hv|[Hv1 Hv2]]; [eapply V_inv|eapply V_inv_moved]; eauto; now apply inverse_eq.
      + intros e w Hs; inversion Hs; subst; [eapply Hn; eauto|eapply Hn; eauto].
    - lk Ho i; rewrite A; cbn [rbind the]; [rewrite L|none]. cbn [rbind the].
      assert (O1 : owned (put s p (Some (q_inv v)))) by (eapply put_owned; [eassumption|apply load_ok; eassumption]).
      destruct (@meets_move (put s p (Some (q_inv v))) i (Some p) O1) as (s' & -> & O & R & Vv); [unfold own; cbn [vars put]; now rewrite N|].
      split; [auto|]. split; [now rewrite R|]. rewrite Vv, (put_values Ho i) by assumption. rewrite upd_upd by (eapply at_lt; eauto).
      cbn [holds put heap]. rewrite nth_error_upd, Nat.eqb_refl by (eapply own_lt; eauto). econstructor; eauto. now apply inverse_eq.
    - lk Ho i; rewrite A; cbn [rbind]; [rewrite L|]; cbn [the]; [|none]. apply meets_created; auto. econstructor; eauto. now apply neutral_eq.
    - destruct (owns s i) as [(c & E & Ec & Ev)|[E Hn]]; rewrite E; cbn [the]; [|intros e w Hs; inversion Hs; subst; eapply Hn; eauto].
      destruct (@release_owned _ s Ho (set_var s i None) i c None Ec) as (s'' & -> & O & Vr & R & Vl).
      + intros k. cbn. now rewrite nth_error_upd by (eapply nth_error_lt; eauto).
      + cbn. now rewrite app_nil_r.
      + split; [auto|]. split; [now rewrite R|]. rewrite Vl. econstructor; eauto.
  Qed.

  (** ** The specification leaves no choice *)
  Lemma vstep_det (w : store F) o e1 w1 e2 w2 : vstep w o e1 w1 -> vstep w o e2 w2 -> e1 = e2 /\ w1 = w2.
  Proof.
    intros H1 H2. inversion H1; subst; inversion H2; subst; unfold the_one, at_ in *;
      repeat match goal with
      | A : nth_error ?w ?i = Some ?x, B : nth_error ?w ?i = Some ?y |- _ => assert (x = y) by congruence; clear B; subst
      | A : Some _ = Some _ |- _ => injection A as A; subst
      | A : Some _ = None |- _ => discriminate
      | A : None = Some _ |- _ => discriminate
      | A : product _ _ _ |- _ => apply (fun h => conj (product_same h) (product_op h)) in A; destruct A
      | A : inverse_of _ _ |- _ => apply inverse_eq in A; subst
      | A : neutral_of _ _ |- _ => apply neutral_eq in A; subst
      end; try tauto; try (split; congruence); split; try reflexivity;
      repeat match goal with A : q_op ?v ?u = Ok ?x, B : q_op ?v ?u = Ok ?y |- _ => assert (x = y) by congruence; clear B; subst end; congruence.
  Qed.

  Lemma run_plain l : forall s, owned s -> Forall (@plain F) l -> match run l s with
    | Some (t, s') => owned s' /\ vruns (values s) l t (values s') /\ (forall t' w, vruns (values s) l t' w -> t' = t /\ w = values s')
    | None => forall t' w, ~ vruns (values s) l t' w end.
  Proof.
    induction l as [|o l IH]; intros s Ho Hl; cbn [run].
    - split; [auto|]. split; [constructor|]. intros t' w H; inversion H; auto.
    - apply Forall_cons_iff in Hl. destruct Hl as [Hp Hl]. pose proof (step_plain o Ho Hp) as M. destruct (step s o) as [s1|e s1|]; cbn in M.
      + destruct M as (O & _ & V). specialize (IH s1 O Hl). destruct (run l s1) as [[t s']|]; cbn.
        * destruct IH as (O' & R & U). split; [auto|]. split; [econstructor; eauto|]. intros t' w H; inversion H as [|? ? ? ? ? ? ? Hs Hr]; subst.
          destruct (vstep_det Hs V) as [-> ->]. destruct (U _ _ Hr) as [-> ->]. auto.
        * intros t' w H; inversion H as [|? ? ? ? ? ? ? Hs Hr]; subst. destruct (vstep_det Hs V) as [-> ->]. eapply IH; eauto.
      + destruct M as (O & _ & V). specialize (IH s1 O Hl). destruct (run l s1) as [[t s']|]; cbn.
        * destruct IH as (O' & R & U). split; [auto|]. split; [econstructor; eauto|]. intros t' w H; inversion H as [|? ? ? ? ? ? ? Hs Hr]; subst.
          destruct (vstep_det Hs V) as [-> ->]. destruct (U _ _ Hr) as [-> ->]. auto.
        * intros t' w H; inversion H as [|? ? ? ? ? ? ? Hs Hr]; subst. destruct (vstep_det Hs V) as [-> ->]. eapply IH; eauto.
      + intros t' w H; inversion H as [|? ? ? ? ? ? ? Hs Hr]; subst. eapply M; eauto.
  Qed.

  Lemma start_owned : owned (start F).
  Proof.
    split; cbn.
    - intros p. split; [intros [v H]|intros [i H]]; [destruct p|destruct i]; discriminate.
    - intros i j p H. destruct i; discriminate.
  Qed.
  Lemma program_values l : Forall (@plain F) l -> forall t w, (exists s, run l (start F) = Some (t, s) /\ values s = w) <-> vruns [] l t w.
  Proof.
    intros Hl t w. pose proof (run_plain start_owned Hl) as H. change (values (start F)) with (@nil (option qv)) in H.
    destruct (run l (start F)) as [[t' s']|].
    - destruct H as (_ & R & U). split.
      + intros (s & [= <- <-] & <-). exact R.
      + intros Hr. destruct (U _ _ Hr) as [-> ->]. eauto.
    - split; [intros (s & Hs & _); discriminate|]. intros Hr. destruct (H _ _ Hr).
  Qed.

  (** ** Ownership, with references *)
  Definition safe (r : outcome F) : Prop := match r with Done s | Thrown _ s => owned s | Undef _ => True end.
  Lemma safe_the {A} (s : st) (r : result A) k : owned s -> (forall a, r = Ok a -> safe (k a)) -> safe (the s r k).
  Proof. intros Ho H. destruct r; cbn; auto. Qed.
  Lemma safe_both (s : st) a b f first : owned s -> safe (both s a b f first).
  Proof.
    intros Ho. unfold both. destruct (addr s a) as [p|e|]; cbn [rbind]; try exact Ho; try exact I. destruct (addr s b) as [q|e|]; cbn [rbind]; try exact Ho; try exact I.
    destruct (load s p) as [v|e|] eqn:E1; cbn [rbind]; try exact Ho; try exact I. destruct (load s q) as [u|e|] eqn:E2; cbn [rbind]; try exact Ho; try exact I.
    apply load_ok in E1. apply load_ok in E2. destruct (f v u); try exact Ho; try exact I. destruct first; cbn; eapply put_owned; eauto.
  Qed.
  Lemma safe_andthen r k : safe r -> (forall s, owned s -> safe (k s)) -> safe (andthen r k).
  Proof. intros H1 H2. destruct r; cbn in *; auto. Qed.
  Lemma safe_move (s : st) i : owned s -> safe (move_out s i).
  Proof. intros Ho. destruct (owns s i) as [(c & E & _)|[E _]]; [destruct (meets_move _ Ho E) as (s' & -> & O & _); exact O|unfold move_out; now rewrite E]. Qed.
  Lemma safe_release (s s' : st) i c n : owned s -> nth_error (vars s) i = Some c ->
    (forall k, nth_error (vars s') k = if k =? i then Some (new_cell s n) else nth_error (vars s) k) ->
    heap s' = heap s ++ (match n with Some v => [Some v] | None => [] end) -> safe (release s' c).
  Proof. intros Ho H1 H2 H3. destruct (@release_owned _ s Ho s' i c n H1 H2 H3) as (s'' & -> & O & _). exact O. Qed.
  Lemma safe_temp (s : st) v (r : result qv) work : owned s -> (work (alloc s v) (fresh s) = the (alloc s v) r (fun x => Done (put (alloc s v) (fresh s) (Some x)))) ->
    safe (via_temporary s v work).
  Proof.
    intros Ho W. destruct (junk_owned Ho) as [J1 J2]. destruct r as [x|e|]; cbn in W.
    - rewrite (temp_done _ W). now apply create_owned.
    - rewrite (temp_thrown _ W). exact J1.
    - unfold via_temporary. rewrite W. exact I.
  Qed.
  Lemma own_nth (s : st) i c : own s i = Ok c -> nth_error (vars s) i = Some c.
  Proof. unfold own. destruct (nth_error (vars s) i); congruence. Qed.

  Lemma step_owned (s : st) o : owned s -> safe (step s o).
  Proof.
    intros Ho. destruct o; cbn [step]; try (now apply create_owned); try (now apply safe_both); try (now apply safe_move);
      try (apply safe_the; [assumption|intros x Hx]).
    - now apply create_owned.
    - now apply create_owned.
    - apply safe_the; [assumption|intros d Hd]. apply exchange_owned; auto using own_nth.
    - apply safe_the; [assumption|intros c Hc]. apply own_nth in Hc.
      apply safe_release with (s := s) (i := i) (n := Some x); auto. intros k; cbn. now rewrite nth_error_upd by (eapply nth_error_lt; eauto).
    - apply safe_the; [assumption|intros d Hd]. apply exchange_owned; auto using own_nth.
    - destruct x as [[[p q] v] y].
      destruct (addr s a) as [p'|e|]; cbn [rbind] in Hx; try discriminate. destruct (addr s b) as [q'|e|]; cbn [rbind] in Hx; try discriminate.
      destruct (load s p') as [v'|e|] eqn:E1; cbn [rbind] in Hx; try discriminate. destruct (load s q') as [u'|e|] eqn:E2; cbn [rbind] in Hx; try discriminate.
      destruct (virt _ v' u') as [y'|e|]; cbn [rbind] in Hx; try discriminate. injection Hx as -> -> -> ->.
      apply load_ok in E1. apply load_ok in E2. pose proof (put_owned Ho _ y E1) as O1. cbn.
      assert (P : exists u, nth_error (heap (put s p (Some y))) q = Some (Some u)).
      { cbn. rewrite nth_error_upd by (eapply nth_error_lt; eauto). destruct (q =? p); eauto. }
      destruct P as [u Hu]. eapply put_owned; eauto.
    - destruct x as [p v]. destruct (addr s a) as [p'|e|]; cbn [rbind] in Hx; try discriminate. destruct (load s p') as [v'|e|] eqn:E1; cbn [rbind] in Hx; try discriminate.
      injection Hx as -> ->. apply load_ok in E1. cbn. eapply put_owned; eauto.
    - destruct x as [q v]. apply safe_temp with (r := do w <- load (alloc s v) q ; q_op v w); auto.
    - apply safe_andthen; [now apply safe_both|]. intros; now apply safe_move.
    - apply safe_andthen; [now apply safe_both|]. intros; now apply safe_move.
    - apply safe_temp with (r := Ok (q_inv x)); auto.
    - destruct x as [p v]. destruct (addr s (Var i)) as [p'|e|]; cbn [rbind] in Hx; try discriminate. destruct (load s p') as [v'|e|] eqn:E1; cbn [rbind] in Hx; try discriminate.
      injection Hx as -> ->. apply load_ok in E1. apply safe_move. eapply put_owned; eauto.
    - now apply create_owned.
    - exact Ho.
    - apply own_nth in Hx. apply safe_release with (s := s) (i := i) (n := None); auto; [|cbn; now rewrite app_nil_r].
      intros k; cbn. now rewrite nth_error_upd by (eapply nth_error_lt; eauto).
  Qed.
  Lemma run_owned l : forall (s : st) t s', owned s -> run l s = Some (t, s') -> owned s'.
  Proof.
    induction l as [|o l IH]; intros s t s' Ho; cbn [run].
    - intros [= <- <-]; auto.
    - pose proof (step_owned o Ho) as M. destruct (step s o) as [s1|e s1|]; cbn in M; [| |discriminate];
        (destruct (run l s1) as [[t1 s2]|] eqn:E; [|discriminate]); cbn; intros [= <- <-]; eapply IH; eauto.
  Qed.
  Lemma program_owned l t s : run l (start F) = Some (t, s) -> owned s.
  Proof. apply run_owned, start_owned. Qed.
End ET.
