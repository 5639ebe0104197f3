(** Operations of block tensors on memories: what they change and what they leave alone. *)
From Verif Require Import Base Quantity FlatMap SpecFlatMap FlatMapProofs FlatMapThms Ring Index SpecIndex Dense IndexProofs BTensor SpecBTensor BTensorProofs LegsProofs BTensorArith ArithProofs Share SpecShare ShareProofs.
Set Implicit Arguments.

Section T.
  Context {G : abgroup} {R : ring}.
  Notation key := (list nat).
  Notation heap := (@heap R).
  Notation ten := (@ten G R).
  Notation st := (@st G R).
  Notation KO := key_order_idx.
  Implicit Types h : heap.

  (** *** Lists of entries *)
  Definition onv {A B} (f : A -> B) (l : list (key * A)) : list (key * B) := map (fun e => (fst e, f (snd e))) l.
  Lemma onv_keys A B (f : A -> B) l : map fst (onv f l) = map fst l.
  Proof. unfold onv. rewrite map_map. reflexivity. Qed.
  Lemma keys_sorted A B (l : list (key * A)) : forall m : list (key * B), map fst l = map fst m -> sorted lexb l -> sorted lexb m.
  Proof.
    induction l as [|x l IH]; intros [|y m] E; try discriminate; auto; [intros _; constructor|]. cbn in E. injection E as E1 E2. intros H. apply sorted_cons in H as [H1 H2]. apply sorted_cons. split; [|apply IH; auto].
    intros e He. apply (in_map fst) in He. rewrite <- E2 in He. apply in_map_iff in He as (e' & Ee & He). rewrite <- Ee, <- E1. apply H1, He.
  Qed.
  Lemma onv_sorted A B (f : A -> B) l : sorted lexb l -> sorted lexb (onv f l).
  Proof. apply keys_sorted. symmetry. apply onv_keys. Qed.
  Lemma onv_assoc A B (f : A -> B) k l : assoc leqb k (onv f l) = option_map f (assoc leqb k l).
  Proof. induction l as [|x l IH]; [reflexivity|]. cbn. destruct (leqb (fst x) k); [reflexivity|exact IH]. Qed.
  Lemma forallb_keys A B k (l : list (key * A)) (f : A -> B) : forallb (fun y => lexb k (fst y)) (onv f l) = forallb (fun y => lexb k (fst y)) l.
  Proof. induction l as [|x l IH]; [reflexivity|]. cbn. f_equal. exact IH. Qed.

  Definition fits (l s : list (key * nat)) (k : key) (x : todo) : Prop :=
    match x with Mine i | Alone false i => In (k, i) l | Both i j => In (k, i) l /\ In (k, j) s | Alone true j => In (k, j) s | Yours _ => False end.
  Lemma plan_ok l s : sorted lexb l -> sorted lexb s ->
    exists p, plan l s = Ok p /\ sorted lexb p /\ (forall k x, In (k, x) p -> fits l s k x) /\
      (forall k i j, In (k, i) l -> In (k, j) s -> In (k, Both i j) p) /\
      forall alpha h, fm_merge lexb (d_axpy alpha) (d_scale alpha) (onv (read h) l) (onv (read h) s) = Ok (onv (eval alpha h) p).
  Proof.
    intros Hl Hs. unfold plan. change (map (fun e => (fst e, Mine (snd e))) l) with (onv Mine l). change (map (fun e => (fst e, Yours (snd e))) s) with (onv Yours s).
    destruct (merge_exact KO collide alone (onv_sorted Mine Hl) (onv_sorted Yours Hs)) as (p & E & Sp & A). exists p. split; [exact E|]. split; [exact Sp|].
    assert (A' : forall k, assoc leqb k p = match assoc leqb k l, assoc leqb k s with
      | Some i, Some j => Some (Both i j) | Some i, None => Some (if forallb (fun y => lexb k (fst y)) s then Alone false i else Mine i) | None, Some j => Some (Alone true j) | None, None => None end).
    { intros k. rewrite A, !onv_assoc, forallb_keys. destruct (assoc leqb k l), (assoc leqb k s); reflexivity. }
    split; [|split].
    - intros k x Hx. apply (In_assoc KO) in Hx; [|exact Sp]. rewrite A' in Hx. destruct (assoc leqb k l) as [i|] eqn:E1, (assoc leqb k s) as [j|] eqn:E2; try discriminate; injection Hx as <-.
      + split; apply (assoc_In KO); assumption.
      + destruct (forallb _ s); apply (assoc_In KO); assumption.
      + apply (assoc_In KO); assumption.
    - intros k i j Hi Hj. apply (assoc_In KO). rewrite A', (In_assoc KO _ _ Hl Hi), (In_assoc KO _ _ Hs Hj). reflexivity.
    - intros alpha h. destruct (merge_exact KO (d_axpy alpha) (d_scale alpha) (onv_sorted (read h) Hl) (onv_sorted (read h) Hs)) as (r & E' & Sr & B). rewrite E'. f_equal. apply (sorted_ext KO); [exact Sr|apply onv_sorted, Sp|].
      intros k. rewrite B, !onv_assoc, A', forallb_keys. destruct (assoc leqb k l), (assoc leqb k s); try reflexivity. cbn. destruct (forallb _ s); reflexivity.
  Qed.

  (** *** States *)
  Lemma value_same h h' (z : ten) : (forall k i, In (k, i) (t_blk z) -> deq (read h i) (read h' i)) -> same (value h z) (value h' z).
  Proof.
    intros H. split; [reflexivity|]. cbn [value with_blocks b_blocks]. induction (t_blk z) as [|[k i] l IH]; cbn; constructor; [split; [reflexivity|apply (H k i); left; reflexivity]|]. apply IH. intros; eapply H; right; eassumption.
  Qed.
  Lemma good_ext h h' (x : ten) : ext h h' -> good_ten h x -> good_ten h' x.
  Proof.
    intros E (S & L & D). split; [exact S|]. split; [intros k i Hi; pose proof (ext_len E); specialize (L k i Hi); lia|]. intros k i k' i' Hi Hi'. rewrite (ext_mem E (L _ _ Hi)), (ext_mem E (L _ _ Hi')). apply D; assumption.
  Qed.

  Lemma alloc_all_ok : forall (l : list (key * dense R)) h h' r, good_heap h -> alloc_all h l = (h', r) ->
    good_heap h' /\ ext h h' /\ Forall2 (fun e e' => fst e = fst e' /\ feq (snd e) (read h' (snd e'))) l r /\
    (forall i, i < length (h_win h) -> feq (read h i) (read h' i)) /\
    (forall k n, In (k, n) r -> n < length (h_win h') /\ exists m, mem_at h' n = Some m /\ h_n h <= m) /\
    (forall k n k' n', In (k, n) r -> In (k', n') r -> mem_at h' n = mem_at h' n' -> k = k').
  Proof.
    induction l as [|[k d] l IH]; intros h h' r H E.
    { injection E as <- <-. split; [exact H|]. split; [apply ext_refl|]. split; [constructor|]. split; [intros; apply feq_refl|]. split; [intros ? ? []|intros ? ? ? ? []]. }
    cbn [alloc_all] in E. destruct (alloc h d) as [h1 i] eqn:Ea. destruct (alloc_all h1 l) as [h2 r'] eqn:Er. injection E as <- <-.
    destruct (alloc_ok H Ea) as (H1 & X1 & Ei & Li & Mi & Ni & Vi & Fi). destruct (IH _ _ _ H1 Er) as (H2 & X2 & V2 & F2 & L2 & D2).
    split; [exact H2|]. split; [apply ext_trans with h1; assumption|]. split; [|split; [|split]].
    - constructor; [|exact V2]. split; [reflexivity|]. cbn. apply feq_trans with (read h1 i); [apply feq_sym, Vi|apply F2, Li].
    - intros j Lj. apply feq_trans with (read h1 j); [apply Fi, Lj|apply F2]. pose proof (ext_len X1). lia.
    - intros k' n [[= <- <-]|Hn].
      + split; [pose proof (ext_len X2); lia|]. exists (h_n h). rewrite (ext_mem X2 Li). auto.
      + destruct (L2 k' n Hn) as (A & m & B & C). split; [exact A|]. exists m. split; [exact B|lia].
    - assert (NEW : forall k' n, In (k', n) r' -> mem_at h2 n <> mem_at h2 i).
      { intros k' n Hn Q. destruct (L2 k' n Hn) as (_ & m & B & C). rewrite B, (ext_mem X2 Li), Mi in Q. injection Q as ->. lia. }
      intros k1 n1 k2 n2 [[= <- <-]|I1] [[= <- <-]|I2] Q; auto; [symmetry in Q; destruct (NEW _ _ I2 Q)|destruct (NEW _ _ I1 Q)|exact (D2 _ _ _ _ I1 I2 Q)].
  Qed.

  Lemma Forall2_keys A B (P : A -> B -> Prop) (l : list (key * A)) (m : list (key * B)) : Forall2 (fun e e' => fst e = fst e' /\ P (snd e) (snd e')) l m -> map fst l = map fst m.
  Proof. induction 1 as [|e e' l m [H _] _ IH]; [reflexivity|]. cbn. rewrite H, IH. reflexivity. Qed.
  Lemma Forall2_in A B (P : A -> B -> Prop) l m : Forall2 P l m -> forall y, In y m -> exists x, In x l /\ P x y.
  Proof. induction 1 as [|x y l m H _ IH]; intros z []; [subst; exists x; split; [left; reflexivity|exact H]|]. destruct (IH z H0) as (w & I & Q). exists w. split; [right; exact I|exact Q]. Qed.
  Lemma Forall2_in' A B (P : A -> B -> Prop) l m : Forall2 P l m -> forall x, In x l -> exists y, In y m /\ P x y.
  Proof. induction 1 as [|x y l m H _ IH]; intros z []; [subst; exists y; split; [left; reflexivity|exact H]|]. destruct (IH z H0) as (w & I & Q). exists w. split; [right; exact I|exact Q]. Qed.

  (** The merge of [y] into blocks [x], whatever is done in place. *)
  Lemma core alpha fresh h (x y : ten) T : good_heap h -> good_ten h x -> good_ten h y -> cross h x y -> bt_add (value h x) (value h y) alpha = Ok T ->
    exists p h' out, plan (t_blk x) (t_blk y) = Ok p /\ run alpha fresh h p = (h', out) /\
      let z := mkT (t_meta x) out in
      good_heap h' /\ ext h h' /\ good_ten h' z /\ same T (value h' z) /\
      (forall k x', In (k, x') p -> fits (t_blk x) (t_blk y) k x') /\
      (forall k i j, In (k, i) (t_blk x) -> In (k, j) (t_blk y) -> In (k, i) out /\ deq (d_axpy alpha (read h i) (read h j)) (read h' i)) /\
      (forall k n, In (k, n) out -> exists x', In (k, x') p /\ becomes fresh h h' x' n) /\
      forall i, i < length (h_win h) -> (forall k x' u, In (k, x') p -> In u (written fresh x') -> mem_at h u <> mem_at h i) -> feq (read h i) (read h' i).
  Proof.
    intros H (Sx & Lx & Dx) (Sy & Ly & Dy) C ET. destruct (plan_ok Sx Sy) as (p & Ep & Sp & Fp & Bp & Vp). destruct (run alpha fresh h p) as [h' out] eqn:Er. exists p, h', out. split; [exact Ep|]. split; [exact Er|].
    assert (U : forall k x' u, In (k, x') p -> In u (uses x') -> In (k, u) (t_blk x) \/ In (k, u) (t_blk y)).
    { intros k x' u Hx Hu. specialize (Fp k x' Hx). destruct x' as [i|i|i j|[] i]; cbn in *; intuition (subst; auto). }
    destruct (@run_ok R alpha fresh p h h' out H) as (H' & X & V & F & L & D); auto.
    - intros k x' u Hx Hu. destruct (U k x' u Hx Hu) as [I|I]; [apply (Lx k u I)|apply (Ly k u I)].
    - apply sorted_nodup, Sp.
    - intros k x1 k' x2 u u' H1 H2 U1 U2 Q. destruct (U _ _ _ H1 U1) as [I|I], (U _ _ _ H2 U2) as [I'|I'].
      + exact (Dx _ _ _ _ I I' Q).
      + exact (C _ _ _ _ I I' Q).
      + symmetry. symmetry in Q. exact (C _ _ _ _ I' I Q).
      + exact (Dy _ _ _ _ I I' Q).
    - assert (KE : map fst p = map fst out) by (clear - V; induction V as [|e e' l m [A _] _ IH]; [reflexivity|]; cbn; rewrite A, IH; reflexivity).
      split; [exact H'|]. split; [exact X|]. split; [split; [apply (@keys_sorted _ _ _ _ KE), Sp|split; [exact L|exact D]]|]. split; [|split; [exact Fp|split; [|split; [|exact F]]]].
      + unfold bt_add in ET. destruct (add_tensor_check _ _); cbn [rbind] in ET; try discriminate.
        change (b_blocks (value h x)) with (onv (read h) (t_blk x)) in ET. change (b_blocks (value h y)) with (onv (read h) (t_blk y)) in ET. rewrite Vp in ET. cbn [rbind] in ET. injection ET as <-.
        split; [reflexivity|]. cbn [value with_blocks b_blocks t_blk]. clear - V. unfold onv. induction V as [|e e' l m (A & B & _) _ IH]; cbn; constructor; auto.
      + intros k i j Hi Hj. destruct (Forall2_in' V _ (Bp k i j Hi Hj)) as ([k' n] & I & A & B & E). cbn in A, B, E. subst k' n. split; assumption.
      + intros k n I. destruct (Forall2_in V _ I) as ([k' x'] & I' & A & _ & B). cbn in A, B. subst k'. exists x'. auto.
  Qed.

  (** *** Sums of tensors with the same elements *)
  Definition feqs (l m : list (key * dense R)) : Prop := Forall2 (fun e e' => fst e = fst e' /\ feq (snd e) (snd e')) l m.
  Lemma feqs_zip l m : feqs l m -> exists c, onv fst c = l /\ onv snd c = m /\ forall k v, In (k, v) c -> feq (fst v) (snd v).
  Proof.
    induction 1 as [|[k a] [k' b] l m [A B] _ (c & E1 & E2 & H)]; [exists []; split; [reflexivity|]; split; [reflexivity|]; intros ? ? []|]. cbn in A, B. subst k'. exists ((k, (a, b)) :: c). cbn. split; [unfold onv in E1; rewrite E1; reflexivity|]. split; [unfold onv in E2; rewrite E2; reflexivity|].
    intros k' v [[= <- <-]|I]; [exact B|exact (H k' v I)].
  Qed.
  Lemma merge_feq alpha a a' s s' : sorted lexb a -> sorted lexb s -> feqs a a' -> feqs s s' ->
    exists r r', fm_merge lexb (d_axpy alpha) (d_scale alpha) a s = Ok r /\ fm_merge lexb (d_axpy alpha) (d_scale alpha) a' s' = Ok r' /\ feqs r r'.
  Proof.
    intros Sa Ss Fa Fs. destruct (feqs_zip Fa) as (c & <- & <- & Hc). destruct (feqs_zip Fs) as (d & <- & <- & Hd).
    assert (Sc : sorted lexb c) by (apply (@keys_sorted _ _ (onv fst c)); [apply onv_keys|exact Sa]). assert (Sd : sorted lexb d) by (apply (@keys_sorted _ _ (onv fst d)); [apply onv_keys|exact Ss]).
    set (co := fun v w : dense R * dense R => (d_axpy alpha (fst v) (fst w), d_axpy alpha (snd v) (snd w))). set (no := fun v : dense R * dense R => (d_scale alpha (fst v), d_scale alpha (snd v))).
    destruct (merge_exact KO co no Sc Sd) as (r & _ & Sr & A).
    assert (M : forall f : dense R * dense R -> dense R, (forall v w, f (co v w) = d_axpy alpha (f v) (f w)) -> (forall v, f (no v) = d_scale alpha (f v)) -> fm_merge lexb (d_axpy alpha) (d_scale alpha) (onv f c) (onv f d) = Ok (onv f r)).
    { intros f F1 F2. destruct (merge_exact KO (d_axpy alpha) (d_scale alpha) (onv_sorted f Sc) (onv_sorted f Sd)) as (q & E & Sq & B). rewrite E. f_equal. apply (sorted_ext KO); [exact Sq|apply onv_sorted, Sr|].
      intros k. rewrite B, !onv_assoc, A, forallb_keys. destruct (assoc leqb k c), (assoc leqb k d); cbn; rewrite ?F1, ?F2; try reflexivity. destruct (forallb _ d); rewrite ?F2; reflexivity. }
    exists (onv fst r), (onv snd r). split; [apply M; reflexivity|]. split; [apply M; reflexivity|].
    assert (Q : forall k v, In (k, v) r -> feq (fst v) (snd v)).
    { intros k v Hv. apply (In_assoc KO) in Hv; [|exact Sr]. rewrite A in Hv. destruct (assoc leqb k c) as [v1|] eqn:E1, (assoc leqb k d) as [v2|] eqn:E2; try discriminate; injection Hv as <-; try apply (assoc_In KO), Hc in E1; try apply (assoc_In KO), Hd in E2.
      - apply axpy_feq; assumption.
      - destruct (forallb _ d); [apply scale_feq|]; assumption.
      - apply scale_feq; assumption. }
    clear - Q. induction r as [|[k v] r IH]; [constructor|]. unfold feqs, onv in *. cbn. constructor; [split; [reflexivity|apply (Q k v); left; reflexivity]|]. apply IH. intros; eapply Q; right; eassumption.
  Qed.
  Lemma add_feq h h' (x x' y y' : ten) alpha T : sorted lexb (t_blk x) -> sorted lexb (t_blk y) -> t_meta x = t_meta x' -> t_meta y = t_meta y' ->
    feqs (onv (read h) (t_blk x)) (onv (read h') (t_blk x')) -> feqs (onv (read h) (t_blk y)) (onv (read h') (t_blk y')) ->
    bt_add (value h x) (value h y) alpha = Ok T -> exists T', bt_add (value h' x') (value h' y') alpha = Ok T' /\ same T T'.
  Proof.
    intros Sx Sy Mx My Fx Fy. destruct (merge_feq alpha (onv_sorted _ Sx) (onv_sorted _ Sy) Fx Fy) as (r & r' & E & E' & F). unfold bt_add.
    change (b_blocks (value h x)) with (onv (read h) (t_blk x)). change (b_blocks (value h y)) with (onv (read h) (t_blk y)). change (b_blocks (value h' x')) with (onv (read h') (t_blk x')). change (b_blocks (value h' y')) with (onv (read h') (t_blk y')).
    replace (add_tensor_check (value h' x') (value h' y')) with (add_tensor_check (value h x) (value h y)) by (unfold value; rewrite Mx, My; reflexivity).
    destruct (add_tensor_check _ _); cbn [rbind]; try discriminate. rewrite E, E'. cbn [rbind]. intros [= <-]. eexists. split; [reflexivity|]. split; [unfold value; rewrite Mx; reflexivity|]. cbn [with_blocks b_blocks].
    clear - F. induction F as [|e e' l m [A B] _ IH]; constructor; auto. split; [exact A|apply feq_deq, B].
  Qed.
  Lemma same_trans (T1 T2 T3 : btensor G R) : same T1 T2 -> same T2 T3 -> same T1 T3.
  Proof.
    intros [M F] [M' F']. split; [congruence|]. revert F'. generalize (b_blocks T3). induction F as [|e e' l m [A B] _ IH]; intros n F'; inversion F' as [|? e2 ? n' [A' B'] Q]; subst; constructor; [|apply IH, Q]. split; [congruence|]. apply deq_trans' with (snd e'); assumption.
  Qed.

  Lemma rnth_some A (l : list A) a x : nth_error l a = Some x -> rnth l a = Ok x.
  Proof. unfold rnth. intros ->. reflexivity. Qed.
  Lemma good_push s h' (z : ten) : good s -> good_heap h' -> ext (s_heap s) h' -> good_ten h' z -> good (push s h' z).
  Proof.
    intros [_ HT] H' X Z. split; [exact H'|]. intros n w Hn. cbn in Hn. destruct (Nat.lt_ge_cases n (length (s_vars s))) as [L|L].
    - rewrite nth_error_app1 in Hn by exact L. apply good_ext with (s_heap s); [exact X|]. apply (HT n w Hn).
    - rewrite nth_error_app2 in Hn by exact L. destruct (n - length (s_vars s)) as [|q]; [injection Hn as <-; exact Z|destruct q; discriminate].
  Qed.
  Lemma frame_all s h' n (z : ten) : good s -> (forall i, i < length (h_win (s_heap s)) -> feq (read (s_heap s) i) (read h' i)) -> nth_error (s_vars s) n = Some z -> same (value (s_heap s) z) (value h' z).
  Proof. intros [_ HT] F Hn. apply value_same. intros k i I. apply feq_deq, F. apply (HT n z Hn) in I. exact I. Qed.
  Lemma new_apart s h' n (z w : ten) : good s -> ext (s_heap s) h' -> (forall k i, In (k, i) (t_blk z) -> exists m, mem_at h' i = Some m /\ h_n (s_heap s) <= m) -> nth_error (s_vars s) n = Some w -> apart h' z w.
  Proof.
    intros [H HT] X N Hw k i k' j I J Q. destruct (N k i I) as (m & Em & Lm). destruct (HT n w Hw) as (_ & L & _). specialize (L k' j J). destruct (mem_lt H L) as (m' & Em' & Lm'). rewrite (ext_mem X L), Em, Em' in Q. injection Q as ->. lia.
  Qed.

  (** [a.add(b, alpha)] *)
  Lemma add_ok s a b (x y : ten) alpha : good s -> nth_error (s_vars s) a = Some x -> nth_error (s_vars s) b = Some y ->
    match bt_add (value (s_heap s) x) (value (s_heap s) y) alpha with
    | Ok T => exists s' z, step s (OAdd a b alpha) = Ok s' /\ good s' /\ s_vars s' = s_vars s ++ [z] /\ same T (value (s_heap s') z) /\
        forall n w, nth_error (s_vars s) n = Some w -> unchanged s s' w /\ apart (s_heap s') z w
    | Throw e => step s (OAdd a b alpha) = Throw e
    | UB => step s (OAdd a b alpha) = UB
    end.
  Proof.
    intros HG Hx Hy. pose proof HG as [H HT]. destruct (HT a x Hx) as (Sx & Lx & Dx). destruct (HT b y Hy) as (Sy & Ly & Dy).
    destruct (bt_add (value (s_heap s) x) (value (s_heap s) y) alpha) as [T|e|] eqn:ET; cbn [step]; rewrite (rnth_some _ _ Hx), (rnth_some _ _ Hy); cbn [rbind].
    - destruct (alloc_all (s_heap s) _) as [h1 l] eqn:Ea. destruct (alloc_all_ok _ H Ea) as (H1 & X1 & V1 & F1 & L1 & D1).
      assert (Kl : map fst (t_blk x) = map fst l). { rewrite <- (@Forall2_keys _ _ (fun d n => feq d (read h1 n)) _ _ V1), map_map. reflexivity. }
      set (x1 := mkT (t_meta x) l).
      assert (Gx : good_ten h1 x1) by (split; [apply (@keys_sorted _ _ _ _ Kl), Sx|split; [intros k i I; apply (L1 k i I)|exact D1]]).
      assert (Gy : good_ten h1 y) by (apply good_ext with (s_heap s); [exact X1|apply (HT b y Hy)]).
      assert (C : cross h1 x1 y) by (intros k i k' j I J Q; destruct (@new_apart s h1 b x1 y HG X1 (fun k i I => proj2 (L1 k i I)) Hy k i k' j I J Q)).
      destruct (@add_feq (s_heap s) h1 x x1 y y alpha T Sx Sy eq_refl eq_refl) as (T1 & E1 & ST); [| |exact ET|].
      { clear - V1. unfold feqs, onv. cbn [x1 t_blk]. revert V1. generalize l. clear. induction (t_blk x) as [|e m IH]; intros l V; inversion V as [|? e' ? l' [A B] Q]; subst; cbn; constructor; auto. }
      { unfold feqs, onv. clear - F1 Ly. induction (t_blk y) as [|[k i] m IH]; cbn; constructor; [split; [reflexivity|apply F1, (Ly k i); left; reflexivity]|]. apply IH. intros; eapply Ly; right; eassumption. }
      destruct (@core alpha (fun _ _ => true) h1 x1 y T1 H1 Gx Gy C E1) as (p & h2 & out & Ep & Er & H2 & X2 & Gz & Sz & Fp & _ & Bo & F2).
      unfold bt_add in ET. change (add_tensor_check (value (s_heap s) x) (value (s_heap s) y)) with (add_tensor_check (t_meta x) (t_meta y)) in ET. destruct (add_tensor_check (t_meta x) (t_meta y)); cbn [rbind] in ET |- *; try discriminate.
      cbn [x1 t_blk] in Ep. rewrite Ep. cbn [rbind]. rewrite Er. set (z := mkT (t_meta x) out) in *.
      assert (X : ext (s_heap s) h2) by (apply ext_trans with h1; assumption).
      assert (F : forall i, i < length (h_win (s_heap s)) -> feq (read (s_heap s) i) (read h2 i)).
      { intros i Li. apply feq_trans with (read h1 i); [apply F1, Li|]. apply F2; [pose proof (ext_len X1); lia|]. intros k x' u I W. specialize (Fp k x' I). destruct x' as [|?|i' j|c i']; cbn in W; try tauto. destruct W as [<-|[]]. cbn in Fp. destruct Fp as [I' _].
        intros Q. destruct (L1 k i' I') as (_ & m & Em & Lm). destruct (mem_lt H Li) as (m' & Em' & Lm'). rewrite (ext_mem X1 Li), Em, Em' in Q. injection Q as ->. lia. }
      exists (push s h2 z), z. split; [reflexivity|]. split; [apply good_push; auto|]. split; [reflexivity|]. split; [exact (same_trans ST Sz)|].
      intros n w Hw. split; [exact (@frame_all s h2 n w HG F Hw)|]. apply (@new_apart s h2 n z w HG X); [|exact Hw].
      intros k i I. destruct (Bo k i I) as (x' & I' & B). specialize (Fp k x' I').
      assert (OLD : In (k, i) l -> exists m, mem_at h2 i = Some m /\ h_n (s_heap s) <= m). { intros Q. destruct (L1 k i Q) as (Li & m & Em & Lm). exists m. rewrite (ext_mem X2 Li). auto. }
      destruct x' as [i'|i'|i' j|c i']; cbn in B, Fp; [subst; apply OLD, Fp|destruct Fp|subst; apply OLD, Fp|]. destruct B as (_ & m & Em & Lm). exists m. split; [exact Em|]. destruct X1 as [_ X1]. lia.
    - unfold bt_add in ET. change (add_tensor_check (value (s_heap s) x) (value (s_heap s) y)) with (add_tensor_check (t_meta x) (t_meta y)) in ET. destruct (add_tensor_check (t_meta x) (t_meta y)); cbn [rbind] in ET |- *; try discriminate; [|congruence].
      destruct (plan_ok Sx Sy) as (p & _ & _ & _ & _ & Vp). change (b_blocks (value (s_heap s) x)) with (onv (read (s_heap s)) (t_blk x)) in ET. change (b_blocks (value (s_heap s) y)) with (onv (read (s_heap s)) (t_blk y)) in ET. rewrite Vp in ET. discriminate.
    - unfold bt_add in ET. change (add_tensor_check (value (s_heap s) x) (value (s_heap s) y)) with (add_tensor_check (t_meta x) (t_meta y)) in ET. destruct (add_tensor_check (t_meta x) (t_meta y)); cbn [rbind] in ET |- *; try discriminate; [|reflexivity].
      destruct (plan_ok Sx Sy) as (p & _ & _ & _ & _ & Vp). change (b_blocks (value (s_heap s) x)) with (onv (read (s_heap s)) (t_blk x)) in ET. change (b_blocks (value (s_heap s) y)) with (onv (read (s_heap s)) (t_blk y)) in ET. rewrite Vp in ET. discriminate.
  Qed.
End T.
