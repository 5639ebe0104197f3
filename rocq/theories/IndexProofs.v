From Verif Require Import Base Index SpecIndex SpecFlatMap.
From Coq Require Import Permutation ZifyBool.
Set Implicit Arguments.
#[global] Arguments Nat.ltb : simpl never.
#[global] Arguments Nat.leb : simpl never.
#[global] Arguments Nat.eqb : simpl never.

(** * Lists *)
Lemma sum_list_app a b : sum_list (a ++ b) = sum_list a + sum_list b.
Proof. unfold sum_list. induction a as [|x a IH]; cbn; [reflexivity|]. rewrite IH. lia. Qed.
Lemma prod_list_app a b : prod_list (a ++ b) = prod_list a * prod_list b.
Proof. unfold prod_list. induction a as [|x a IH]; cbn; [lia|]. rewrite IH. lia. Qed.
Lemma sum_list_cons x a : sum_list (x :: a) = x + sum_list a. Proof. reflexivity. Qed.
Lemma prod_list_cons x a : prod_list (x :: a) = x * prod_list a. Proof. reflexivity. Qed.

Lemma in_range_length sh ix : in_range sh ix = true -> length ix = length sh.
Proof.
  revert ix; induction sh as [|s sh IH]; intros [|i ix]; cbn; try discriminate; auto.
  intros H; apply andb_true_iff in H as [_ H]. f_equal; auto.
Qed.
Lemma in_range_cons s sh i ix : in_range (s :: sh) (i :: ix) = true <-> i < s /\ in_range sh ix = true.
Proof. cbn. rewrite andb_true_iff, Nat.ltb_lt. tauto. Qed.
Lemma in_range_nth sh ix : in_range sh ix = true <->
  length ix = length sh /\ forall k, k < length sh -> nth k ix 0 < nth k sh 0.
Proof.
  revert ix; induction sh as [|s sh IH]; intros [|i ix].
  - cbn. split; [split; [reflexivity|lia]|reflexivity].
  - cbn. split; [discriminate|intros [H _]; discriminate].
  - cbn. split; [discriminate|intros [H _]; discriminate].
  - rewrite in_range_cons, IH. split.
    + intros [H [H1 H2]]; split; [cbn; lia|]. intros [|k] Hk; cbn in *; [lia|apply H2; lia].
    + intros [H1 H2]; cbn in H1; split; [apply (H2 0); cbn; lia|split; [lia|]].
      intros k Hk; apply (H2 (S k)); cbn; lia.
Qed.
Lemma in_range_app sh1 sh2 ix1 ix2 : length ix1 = length sh1 ->
  in_range (sh1 ++ sh2) (ix1 ++ ix2) = (in_range sh1 ix1 && in_range sh2 ix2)%bool.
Proof.
  revert ix1; induction sh1 as [|s sh IH]; intros [|i ix] H; try discriminate; [reflexivity|].
  cbn. rewrite IH by (cbn in H; lia). apply andb_assoc.
Qed.
Lemma in_range_pos sh ix : in_range sh ix = true -> 0 < prod_list sh.
Proof.
  revert ix; induction sh as [|s sh IH]; intros [|i ix] H; try discriminate; [cbn; lia|].
  apply in_range_cons in H as [H1 H2]. rewrite prod_list_cons. specialize (IH _ H2). nia.
Qed.

(** * Keys *)
Lemma leqb_eq a b : leqb a b = true <-> a = b.
Proof.
  revert b; induction a as [|x a IH]; intros [|y b]; cbn; try (split; [discriminate|discriminate]).
  - tauto.
  - rewrite andb_true_iff, Nat.eqb_eq, IH. split; [intros [-> ->]; reflexivity|intros [= -> ->]; auto].
Qed.
Lemma leqb_refl a : leqb a a = true. Proof. apply leqb_eq; reflexivity. Qed.
Lemma leqb_neq a b : leqb a b = false <-> a <> b.
Proof. rewrite <- leqb_eq. destruct (leqb a b); intuition congruence. Qed.
Lemma lexb_irrefl a : lexb a a = false.
Proof. induction a as [|x a IH]; cbn; [reflexivity|]. rewrite IH. lia. Qed.
Lemma lexb_trans a b c : lexb a b = true -> lexb b c = true -> lexb a c = true.
Proof.
  revert b c; induction a as [|x a IH]; intros [|y b] [|z c]; cbn; try discriminate; auto.
  rewrite !orb_true_iff, !andb_true_iff, !Nat.ltb_lt, !Nat.eqb_eq.
  intros [H|[-> H]] [H'|[-> H']]; auto; try (left; lia). right. eauto.
Qed.
Lemma lexb_total a b : lexb a b = false -> lexb b a = false -> a = b.
Proof.
  revert b; induction a as [|x a IH]; intros [|y b]; cbn; try discriminate; auto.
  rewrite !orb_false_iff, !andb_false_iff, !Nat.ltb_ge, !Nat.eqb_neq. intros [H1 H2] [H3 H4].
  assert (x = y) by lia. subst. f_equal. apply IH; [destruct H2|destruct H4]; auto; lia.
Qed.
Lemma key_order_idx : key_order leqb lexb.
Proof.
  unfold key_order.
  repeat match goal with |- _ /\ _ => split end; intros; eauto using leqb_eq, lexb_irrefl, lexb_trans.
  destruct (lexb a b) eqn:E1; auto. destruct (lexb b a) eqn:E2; auto. right; left. apply lexb_total; auto.
Qed.
Lemma lex_lt_length a b : lex_lt a b -> length a = length b.
Proof. induction 1; cbn; auto. Qed.
Lemma lexb_lex_lt a b : length a = length b -> (lexb a b = true <-> lex_lt a b).
Proof.
  revert b; induction a as [|x a IH]; intros [|y b]; cbn; intros H; try discriminate.
  - split; [discriminate|intros H'; inversion H'].
  - rewrite orb_true_iff, andb_true_iff, Nat.ltb_lt, Nat.eqb_eq, IH by lia. split.
    + intros [H1|[-> H1]]; [constructor; lia|constructor 2; auto].
    + intros H'; inversion H'; subst; auto.
Qed.

(** * All multi-indices *)
Lemma idxs_In sh ix : In ix (idxs sh) <-> in_range sh ix = true.
Proof.
  revert ix; induction sh as [|s sh IH]; intros ix; cbn [idxs].
  - destruct ix; cbn; [tauto|]. split; [intros [H|[]]; discriminate|discriminate].
  - rewrite in_flat_map. split.
    + intros [i [Hi H]]. apply in_map_iff in H as [ix' [<- H]]. apply in_range_cons.
      apply in_seq in Hi. split; [lia|apply IH; auto].
    + destruct ix as [|i ix]; [discriminate|]. rewrite in_range_cons. intros [H1 H2].
      exists i. split; [apply in_seq; lia|apply in_map; apply IH; auto].
Qed.
Lemma NoDup_map_inj A B (f : A -> B) l : (forall x y, f x = f y -> x = y) -> NoDup l -> NoDup (map f l).
Proof.
  intros Hf; induction 1 as [|x l H1 H2 IH]; cbn; constructor; auto.
  rewrite in_map_iff. intros [y [H H']]. apply Hf in H. subst; contradiction.
Qed.
Lemma NoDup_app_intro A (l m : list A) : NoDup l -> NoDup m -> (forall x, In x l -> In x m -> False) -> NoDup (l ++ m).
Proof.
  induction 1 as [|x l H1 H2 IH]; intros Hm Hd; cbn; auto. constructor.
  - rewrite in_app_iff. intros [H|H]; [contradiction|]. apply (Hd x); auto; left; auto.
  - apply IH; auto. intros y Hy; apply Hd; right; auto.
Qed.
Lemma NoDup_flat_map A B (f : A -> list B) l :
  NoDup l -> (forall a, In a l -> NoDup (f a)) -> (forall a b x, In a l -> In b l -> In x (f a) -> In x (f b) -> a = b) ->
  NoDup (flat_map f l).
Proof.
  induction 1 as [|a l H1 H2 IH]; intros Hn Hd; cbn; [constructor|].
  apply NoDup_app_intro.
  - apply Hn; left; auto.
  - apply IH; [intros; apply Hn; right; auto|]. intros b c x Hb Hc; apply Hd; right; auto.
  - intros x Hx Hx'. apply in_flat_map in Hx' as [b [Hb Hx']].
    assert (a = b) by (eapply Hd; [left; reflexivity|right; eassumption|eassumption|assumption]). subst; contradiction.
Qed.
Lemma idxs_NoDup sh : NoDup (idxs sh).
Proof.
  induction sh as [|s sh IH]; cbn [idxs]; [repeat constructor; auto|].
  apply NoDup_flat_map; [apply seq_NoDup| |].
  - intros i _. apply NoDup_map_inj; auto. intros x y [= ->]; auto.
  - intros a b x _ _ H1 H2. apply in_map_iff in H1 as [y [<- _]]. apply in_map_iff in H2 as [z [[= -> _] _]]. auto.
Qed.
Lemma idxs_length sh : length (idxs sh) = prod_list sh.
Proof.
  induction sh as [|s sh IH]; cbn [idxs]; [reflexivity|]. rewrite prod_list_cons, <- IH.
  generalize 0. induction s as [|s IHs]; intros n; cbn; [reflexivity|].
  rewrite app_length, map_length, IHs. reflexivity.
Qed.

(** * Row-major position *)
Fixpoint unrank (sh : list nat) (n : nat) : list nat :=
  match sh with [] => [] | _ :: r => n / prod_list r :: unrank r (n mod prod_list r) end.

Lemma rowmajor_lt sh ix : in_range sh ix = true -> rowmajor sh ix < prod_list sh.
Proof.
  revert ix; induction sh as [|s sh IH]; intros [|i ix] H; try discriminate; [cbn; lia|].
  apply in_range_cons in H as [H1 H2]. specialize (IH _ H2). rewrite prod_list_cons. cbn [rowmajor]. nia.
Qed.
Lemma unrank_rowmajor sh ix : in_range sh ix = true -> unrank sh (rowmajor sh ix) = ix.
Proof.
  revert ix; induction sh as [|s sh IH]; intros [|i ix] H; try discriminate; [reflexivity|].
  apply in_range_cons in H as [H1 H2]. cbn [rowmajor unrank]. pose proof (rowmajor_lt _ _ H2).
  f_equal.
  - rewrite Nat.div_add_l by lia. rewrite Nat.div_small by lia. lia.
  - rewrite Nat.add_comm, Nat.mod_add by lia. rewrite Nat.mod_small by lia. auto.
Qed.
Lemma unrank_in_range sh n : n < prod_list sh -> in_range sh (unrank sh n) = true.
Proof.
  revert n; induction sh as [|s sh IH]; intros n H; [reflexivity|]. cbn [unrank]. rewrite prod_list_cons in H.
  assert (0 < prod_list sh) by nia. apply in_range_cons. split.
  - apply Nat.div_lt_upper_bound; lia.
  - apply IH. apply Nat.mod_upper_bound. lia.
Qed.
Lemma rowmajor_unrank sh n : n < prod_list sh -> rowmajor sh (unrank sh n) = n.
Proof.
  revert n; induction sh as [|s sh IH]; intros n H; [cbn in *; lia|]. cbn [unrank rowmajor].
  rewrite prod_list_cons in H. assert (0 < prod_list sh) by nia.
  rewrite IH by (apply Nat.mod_upper_bound; lia). pose proof (Nat.div_mod n (prod_list sh)). lia.
Qed.
Lemma rowmajor_inj sh a b : in_range sh a = true -> in_range sh b = true -> rowmajor sh a = rowmajor sh b -> a = b.
Proof. intros Ha Hb H. rewrite <- (unrank_rowmajor _ _ Ha), <- (unrank_rowmajor _ _ Hb), H. reflexivity. Qed.
Lemma rowmajor_mono sh a b : in_range sh a = true -> in_range sh b = true ->
  (lexb a b = true <-> rowmajor sh a < rowmajor sh b).
Proof.
  revert a b; induction sh as [|s sh IH]; intros [|x a] [|y b] Ha Hb; try discriminate; [cbn; split; [discriminate|lia]|].
  apply in_range_cons in Ha as [Ha1 Ha2]. apply in_range_cons in Hb as [Hb1 Hb2].
  pose proof (rowmajor_lt _ _ Ha2). pose proof (rowmajor_lt _ _ Hb2).
  cbn [lexb rowmajor]. rewrite orb_true_iff, andb_true_iff, Nat.ltb_lt, Nat.eqb_eq, (IH _ _ Ha2 Hb2).
  split.
  - intros [H1|[-> H1]]; nia.
  - intros H1. destruct (lt_eq_lt_dec x y) as [[E|E]|E]; [left; lia|right; subst; split; [reflexivity|lia]|].
    exfalso. nia.
Qed.
Lemma rowmajor_zeros sh : rowmajor sh (zeros (length sh)) = 0.
Proof. induction sh; cbn; auto. Qed.

Lemma rowmajor_app sh1 sh2 a b : length a = length sh1 ->
  rowmajor (sh1 ++ sh2) (a ++ b) = rowmajor sh1 a * prod_list sh2 + rowmajor sh2 b.
Proof.
  revert a; induction sh1 as [|s sh IH]; intros [|x a] H; try discriminate; [reflexivity|].
  cbn [app rowmajor]. rewrite IH by (cbn in H; lia). rewrite prod_list_app. lia.
Qed.

(** * Flatten / unflatten loops *)
Lemma cpp_flatten_go sizes idx : length idx = length sizes ->
  fold_right (fun '(sz, i) '(out, s) => (out + s * i, s * sz)) (0, 1) (combine sizes idx)
  = (rowmajor sizes idx, prod_list sizes).
Proof.
  revert idx; induction sizes as [|s sh IH]; intros [|i ix] H; try discriminate; [reflexivity|].
  cbn [combine fold_right]. rewrite IH by (cbn in H; lia). cbn [rowmajor]. rewrite prod_list_cons. f_equal; lia.
Qed.
Lemma cpp_flatten_rowmajor idx sizes : length idx = length sizes -> cpp_flatten idx sizes = rowmajor sizes idx.
Proof. intros H. unfold cpp_flatten. rewrite cpp_flatten_go; auto. Qed.
Lemma cpp_unflatten_go sizes n : 0 < prod_list sizes ->
  fold_right (fun sz '(f, out) => (f / sz, f mod sz :: out)) (n, []) sizes
  = (n / prod_list sizes, unrank sizes (n mod prod_list sizes)).
Proof.
  revert n; induction sizes as [|s sh IH]; intros n H.
  - change (prod_list []) with 1. rewrite Nat.div_1_r. reflexivity.
  - rewrite prod_list_cons in H. assert (0 < s /\ 0 < prod_list sh) as [H1 H2] by nia.
    cbn [fold_right]. rewrite IH by auto. cbn [unrank]. rewrite prod_list_cons.
    rewrite Nat.div_div by lia. rewrite (Nat.mul_comm s).
    f_equal. rewrite Nat.mod_mul_r by lia.
    f_equal.
    + rewrite Nat.add_comm, Nat.mul_comm, Nat.div_add_l by lia.
      rewrite (Nat.div_small (n mod prod_list sh)) by (apply Nat.mod_upper_bound; lia). lia.
    + rewrite Nat.mul_comm, Nat.mod_add by lia. rewrite Nat.mod_mod by lia. reflexivity.
Qed.
Lemma cpp_unflatten_unrank n sizes : n < prod_list sizes -> cpp_unflatten n sizes = unrank sizes n.
Proof. intros H. unfold cpp_unflatten. rewrite cpp_unflatten_go by lia. cbn [snd]. rewrite Nat.mod_small by lia. reflexivity. Qed.

(** * Odometers *)
Lemma inc_right_go_spec sh ix : in_range sh ix = true ->
  let '(c, ix') := inc_right_go sh ix in
  in_range sh ix' = true /\
  (if c then rowmajor sh ix + 1 = prod_list sh /\ rowmajor sh ix' = 0 else rowmajor sh ix' = rowmajor sh ix + 1).
Proof.
  revert ix; induction sh as [|s sh IH]; intros [|i ix] H; try discriminate; [cbn; auto|].
  apply in_range_cons in H as [H1 H2]. cbn [inc_right_go]. specialize (IH _ H2).
  destruct (inc_right_go sh ix) as [c ix']. destruct IH as [Hr Hc].
  rewrite in_range_cons. cbn [rowmajor]. rewrite prod_list_cons.
  destruct c; cbn [negb b2n].
  - rewrite orb_false_r. destruct (i <? s - 1) eqn:E; cbn [negb andb].
    + split; [split; [lia|auto]|]. rewrite Nat.mul_add_distr_r. lia.
    + split; [split; [lia|auto]|]. assert (Hi : i = s - 1) by lia. subst i.
      replace (s * prod_list sh) with ((s - 1) * prod_list sh + prod_list sh) by nia. lia.
  - rewrite orb_true_r. cbn [negb andb]. split; [split; [lia|auto]|]. replace (i + 0) with i by lia. lia.
Qed.

(** Column-major position. *)
Fixpoint colmajor (shape idx : list nat) : nat :=
  match shape, idx with
  | s :: sh, i :: ix => i + s * colmajor sh ix
  | _, _ => 0
  end.
Lemma colmajor_lt sh ix : in_range sh ix = true -> colmajor sh ix < prod_list sh.
Proof.
  revert ix; induction sh as [|s sh IH]; intros [|i ix] H; try discriminate; [cbn; lia|].
  apply in_range_cons in H as [H1 H2]. specialize (IH _ H2). rewrite prod_list_cons. cbn [colmajor]. nia.
Qed.
Lemma colmajor_inj sh a b : in_range sh a = true -> in_range sh b = true -> colmajor sh a = colmajor sh b -> a = b.
Proof.
  revert a b; induction sh as [|s sh IH]; intros [|x a] [|y b] Ha Hb; try discriminate; [reflexivity|].
  apply in_range_cons in Ha as [Ha1 Ha2]. apply in_range_cons in Hb as [Hb1 Hb2]. cbn [colmajor]. intros H.
  assert (colmajor sh a = colmajor sh b) by nia. f_equal; [nia|auto].
Qed.
Lemma inc_left_false sh ix : inc_left_go false sh ix = ix.
Proof.
  revert ix; induction sh as [|s sh IH]; intros [|i ix]; cbn; auto. rewrite orb_true_r, IH. cbn. f_equal. lia.
Qed.
Lemma inc_left_spec sh ix : in_range sh ix = true ->
  in_range sh (inc_left sh ix) = true /\
  colmajor sh (inc_left sh ix) = (if colmajor sh ix + 1 =? prod_list sh then 0 else colmajor sh ix + 1).
Proof.
  unfold inc_left. revert ix; induction sh as [|s sh IH]; intros [|i ix] H; try discriminate; [cbn; auto|].
  pose proof (colmajor_lt _ _ H) as Hlt. pose proof (in_range_pos _ _ H) as Hp.
  apply in_range_cons in H as [H1 H2]. specialize (IH _ H2).
  cbn [inc_left_go negb]. rewrite orb_false_r. destruct (i <? s - 1) eqn:E; cbn [negb andb b2n].
  - rewrite inc_left_false. rewrite in_range_cons. split; [split; [lia|auto]|]. cbn [colmajor].
    cbn [colmajor] in Hlt. rewrite prod_list_cons in *.
    destruct (i + s * colmajor sh ix + 1 =? s * prod_list sh) eqn:E2; [|lia].
    apply Nat.eqb_eq in E2. assert (i + 1 < s) by lia. exfalso.
    pose proof (colmajor_lt _ _ H2). nia.
  - destruct IH as [IH1 IH2]. rewrite in_range_cons. split; [split; [lia|auto]|]. cbn [colmajor]. rewrite IH2.
    assert (Hi : i = s - 1) by lia. subst i. rewrite prod_list_cons.
    pose proof (colmajor_lt _ _ H2).
    destruct (colmajor sh ix + 1 =? prod_list sh) eqn:E2.
    + apply Nat.eqb_eq in E2. replace (s - 1 + s * colmajor sh ix + 1 =? s * prod_list sh) with true; [lia|].
      symmetry. apply Nat.eqb_eq. rewrite <- E2. nia.
    + apply Nat.eqb_neq in E2. destruct (s - 1 + s * colmajor sh ix + 1 =? s * prod_list sh) eqn:E3; [|nia].
      apply Nat.eqb_eq in E3. exfalso. nia.
Qed.

Lemma iter_succ_r A (f : A -> A) n x : Nat.iter (S n) f x = Nat.iter n f (f x).
Proof. induction n as [|n IH]; [reflexivity|]. change (f (Nat.iter (S n) f x) = f (Nat.iter n f (f x))). f_equal. exact IH. Qed.

(** Orbits: a step function that follows a position modulo the number of indices. *)
Section Orbit.
  Variables (sh : list nat) (pos : list nat -> nat) (inc : list nat -> list nat).
  Hypothesis pos_lt : forall ix, in_range sh ix = true -> pos ix < prod_list sh.
  Hypothesis pos_inj : forall a b, in_range sh a = true -> in_range sh b = true -> pos a = pos b -> a = b.
  Hypothesis pos_zero : pos (zeros (length sh)) = 0.
  Hypothesis inc_ok : forall ix, in_range sh ix = true -> in_range sh (inc ix) = true /\
    pos (inc ix) = (if pos ix + 1 =? prod_list sh then 0 else pos ix + 1).

  Lemma zeros_in_range : 0 < prod_list sh -> in_range sh (zeros (length sh)) = true.
  Proof.
    clear. induction sh as [|s l IH]; cbn; auto. intros H. fold (prod_list l) in H. fold (zeros (length l)).
    rewrite IH by nia. destruct s; cbn; [nia|reflexivity].
  Qed.
  Lemma visit_spec n ix : in_range sh ix = true -> pos ix + n <= prod_list sh ->
    (forall a, In a (visit inc n ix) -> in_range sh a = true) /\
    map pos (visit inc n ix) = seq (pos ix) n /\
    in_range sh (Nat.iter n inc ix) = true /\
    pos (Nat.iter n inc ix) = (if pos ix + n =? prod_list sh then 0 else pos ix + n).
  Proof.
    revert ix; induction n as [|n IH]; intros ix Hr Hn.
    - cbn. split; [intros _ []|]. split; [reflexivity|]. split; [exact Hr|]. rewrite Nat.add_0_r. specialize (pos_lt _ Hr).
      destruct (pos ix =? prod_list sh) eqn:E; lia.
    - cbn [visit]. destruct (inc_ok _ Hr) as [Hi1 Hi2]. pose proof (pos_lt _ Hr).
      rewrite iter_succ_r.
      destruct (pos ix + 1 =? prod_list sh) eqn:E.
      + apply Nat.eqb_eq in E. assert (n = 0) by lia. subst n. cbn [visit Nat.iter].
        split; [intros a [<-|[]]; auto|]. split; [reflexivity|]. split; [exact Hi1|]. cbn [Nat.iter nat_rect]. rewrite Hi2. replace (pos ix + 1 =? prod_list sh) with true; [reflexivity|].
        symmetry; apply Nat.eqb_eq; lia.
      + apply Nat.eqb_neq in E. destruct (IH _ Hi1) as [I1 [I2 [I3 I4]]]; [lia|].
        split; [intros a [<-|Ha]; auto|]. split; [|split; [exact I3|]].
        * cbn [map seq]. rewrite I2, Hi2. f_equal. f_equal. lia.
        * rewrite I4, Hi2. replace (pos ix + 1 + n) with (pos ix + S n) by lia. reflexivity.
  Qed.

  Lemma orbit_enum : 0 < prod_list sh ->
    let v := visit inc (prod_list sh) (zeros (length sh)) in
    NoDup v /\ (forall ix, In ix v <-> in_range sh ix = true) /\
    Nat.iter (prod_list sh) inc (zeros (length sh)) = zeros (length sh) /\
    (forall n, 0 < n < prod_list sh -> Nat.iter n inc (zeros (length sh)) <> zeros (length sh)).
  Proof.
    intros Hp v. pose proof (zeros_in_range Hp) as Hz.
    destruct (@visit_spec (prod_list sh) _ Hz) as [V1 [V2 [V3 V4]]]; [rewrite pos_zero; lia|].
    fold v in V1, V2. rewrite pos_zero in V2, V4. cbn [Nat.add] in V4. rewrite Nat.eqb_refl in V4.
    repeat split.
    - apply (NoDup_map_inv pos). rewrite V2. apply seq_NoDup.
    - apply V1.
    - intros Hix. assert (In (pos ix) (map pos v)) as H. { rewrite V2. apply in_seq. specialize (pos_lt _ Hix). lia. }
      apply in_map_iff in H as [a [Ha1 Ha2]]. rewrite <- (@pos_inj _ _ (V1 _ Ha2) Hix Ha1). exact Ha2.
    - apply pos_inj; auto. rewrite V4, pos_zero. reflexivity.
    - intros n Hn E. destruct (@visit_spec n _ Hz) as [_ [_ [_ N4]]]; [rewrite pos_zero; lia|].
      rewrite E, pos_zero in N4. cbn in N4. destruct (n =? prod_list sh) eqn:E2; lia.
  Qed.
End Orbit.

Lemma colmajor_zeros sh : colmajor sh (zeros (length sh)) = 0.
Proof. induction sh as [|s sh IH]; cbn; auto. fold (zeros (length sh)). rewrite IH. lia. Qed.

Lemma inc_right_spec sh ix : in_range sh ix = true ->
  in_range sh (inc_right sh ix) = true /\
  rowmajor sh (inc_right sh ix) = (if rowmajor sh ix + 1 =? prod_list sh then 0 else rowmajor sh ix + 1).
Proof.
  intros H. pose proof (inc_right_go_spec _ _ H) as Hs. unfold inc_right. destruct (inc_right_go sh ix) as [c ix'].
  cbn [snd]. destruct Hs as [H1 H2]. split; auto. pose proof (rowmajor_lt _ _ H1).
  destruct c.
  - destruct H2 as [H2 H3]. rewrite H3. rewrite (proj2 (Nat.eqb_eq _ _) H2). reflexivity.
  - rewrite H2. destruct (rowmajor sh ix + 1 =? prod_list sh) eqn:E; [|reflexivity]. apply Nat.eqb_eq in E. lia.
Qed.

Lemma left_enum sh : 0 < prod_list sh ->
  let v := visit (inc_left sh) (prod_list sh) (zeros (length sh)) in
  NoDup v /\ (forall ix, In ix v <-> in_range sh ix = true) /\
  Nat.iter (prod_list sh) (inc_left sh) (zeros (length sh)) = zeros (length sh) /\
  (forall n, 0 < n < prod_list sh -> Nat.iter n (inc_left sh) (zeros (length sh)) <> zeros (length sh)).
Proof.
  apply orbit_enum with (pos := colmajor sh); eauto using colmajor_lt, colmajor_inj, colmajor_zeros, inc_left_spec.
Qed.
Lemma right_enum sh : 0 < prod_list sh ->
  let v := visit (inc_right sh) (prod_list sh) (zeros (length sh)) in
  NoDup v /\ (forall ix, In ix v <-> in_range sh ix = true) /\
  Nat.iter (prod_list sh) (inc_right sh) (zeros (length sh)) = zeros (length sh) /\
  (forall n, 0 < n < prod_list sh -> Nat.iter n (inc_right sh) (zeros (length sh)) <> zeros (length sh)).
Proof.
  apply orbit_enum with (pos := rowmajor sh); eauto using rowmajor_lt, rowmajor_inj, rowmajor_zeros, inc_right_spec.
Qed.
Lemma left_enum_perm sh : Permutation (visit (inc_left sh) (prod_list sh) (zeros (length sh))) (idxs sh).
Proof.
  destruct (Nat.eq_dec (prod_list sh) 0) as [E|E].
  - rewrite E. cbn. pose proof (idxs_length sh) as H. rewrite E in H. destruct (idxs sh); [constructor|discriminate].
  - destruct (@left_enum sh) as [H1 [H2 _]]; [lia|]. apply NoDup_Permutation; auto using idxs_NoDup.
    intros x. rewrite H2, idxs_In. tauto.
Qed.
Lemma right_enum_order sh : visit (inc_right sh) (prod_list sh) (zeros (length sh)) = map (unrank sh) (seq 0 (prod_list sh)).
Proof.
  destruct (Nat.eq_dec (prod_list sh) 0) as [E|E]; [rewrite E; reflexivity|].
  assert (Hp : 0 < prod_list sh) by lia. pose proof (zeros_in_range sh Hp) as Hz.
  destruct (@visit_spec sh (rowmajor sh) (inc_right sh) (rowmajor_lt sh) (rowmajor_zeros sh) (inc_right_spec sh) (prod_list sh) _ Hz)
    as [V1 [V2 _]]; [rewrite rowmajor_zeros; lia|].
  rewrite rowmajor_zeros in V2. rewrite <- V2, map_map.
  rewrite <- (map_id (visit _ _ _)) at 1. apply map_ext_in. intros a Ha. symmetry. apply unrank_rowmajor. auto.
Qed.
Lemma map_unrank_idxs sh : map (unrank sh) (seq 0 (prod_list sh)) = idxs sh.
Proof.
  induction sh as [|s sh IH]; [reflexivity|]. rewrite prod_list_cons. cbn [idxs]. rewrite <- IH.
  clear IH. destruct (Nat.eq_dec (prod_list sh) 0) as [E|E].
  { rewrite E, Nat.mul_0_r. cbn. generalize 0. induction s; intros n; cbn; auto. }
  induction s as [|s IHs]; [reflexivity|].
  rewrite seq_S, flat_map_app, <- IHs. cbn [flat_map]. rewrite app_nil_r.
  replace (S s * prod_list sh) with (s * prod_list sh + prod_list sh) by lia.
  rewrite seq_app, map_app. f_equal. cbn [Nat.add].
  rewrite map_map. clear IHs.
  rewrite <- (Nat.add_0_r (s * prod_list sh)) at 1.
  assert (H : forall a n, a + n <= prod_list sh -> forall s0, map (unrank (s0 :: sh)) (seq (s * prod_list sh + a) n)
     = map (fun x => s :: unrank sh x) (seq a n)).
  { intros a n; revert a. induction n as [|n IH]; intros a Ha s0; [reflexivity|]. cbn [seq map].
    rewrite <- Nat.add_succ_r, IH by lia. f_equal. cbn [unrank].
    rewrite Nat.div_add_l by lia. rewrite Nat.div_small by lia.
    rewrite (Nat.add_comm _ a), Nat.mod_add by lia. rewrite Nat.mod_small by lia. f_equal. lia. }
  apply (H 0). lia.
Qed.

(** * Packed vectors *)
Lemma unpack_length A sbd (l : list A) : length (unpack sbd l) = length sbd.
Proof. revert l; induction sbd; intros; cbn; auto. Qed.
Lemma firstn_skipn_comm' A n m (l : list A) : skipn n (firstn (n + m) l) = firstn m (skipn n l).
Proof. revert l; induction n; intros [|x l]; cbn; auto. destruct m; reflexivity. Qed.
Lemma skipn_skipn' A n m (l : list A) : skipn n (skipn m l) = skipn (m + n) l.
Proof. revert l; induction m; intros [|x l]; cbn; auto. destruct n; reflexivity. Qed.
Lemma prange_unpack A sbd (l : list A) d : d < length sbd -> prange sbd l d = nth d (unpack sbd l) [].
Proof.
  unfold prange. revert l d; induction sbd as [|n sbd IH]; intros l d H; cbn in H; [lia|].
  destruct d as [|d]; cbn [nth firstn unpack]; [cbn; reflexivity|].
  rewrite sum_list_cons. rewrite <- IH by lia. rewrite skipn_skipn'. reflexivity.
Qed.
Lemma unpack_lengths A sbd (l : list A) : sum_list sbd <= length l -> map (@length A) (unpack sbd l) = sbd.
Proof.
  revert l; induction sbd as [|n sbd IH]; intros l H; cbn; auto. cbn in H. fold (sum_list sbd) in H.
  rewrite firstn_length, IH by (rewrite skipn_length; lia). f_equal. lia.
Qed.
Lemma concat_unpack A sbd (l : list A) : sum_list sbd = length l -> concat (unpack sbd l) = l.
Proof.
  revert l; induction sbd as [|n sbd IH]; intros l H; cbn.
  - cbn in H. destruct l; [reflexivity|discriminate].
  - rewrite sum_list_cons in H. rewrite IH by (rewrite skipn_length; lia). apply firstn_skipn.
Qed.
Lemma unpack_concat A (L : list (list A)) : unpack (map (@length A) L) (concat L) = L.
Proof.
  induction L as [|x L IH]; cbn; auto. rewrite firstn_app, firstn_all, Nat.sub_diag, app_nil_r.
  rewrite skipn_app, skipn_all, Nat.sub_diag. cbn. rewrite IH. reflexivity.
Qed.
Lemma psection_unpack A (dflt : A) sbd l d b : d < length sbd -> b < nth d sbd 0 ->
  psection dflt sbd l d b = nth b (nth d (unpack sbd l) []) dflt.
Proof.
  intros Hd Hb. rewrite <- prange_unpack by auto. unfold psection, address, prange.
  remember (sum_list (firstn d sbd)) as a. clear -Hb.
  revert l. induction a; intros l; cbn [skipn plus].
  - clear - Hb. revert b l Hb. generalize (nth d sbd 0). intros n. induction n; intros [|b] [|x l] H; cbn; auto; try lia.
    apply IHn; lia.
  - destruct l; cbn; [rewrite firstn_nil; destruct b; reflexivity|]. apply IHa.
Qed.
Lemma prange_length A sbd (l : list A) d : sum_list sbd <= length l -> d < length sbd -> length (prange sbd l d) = nth d sbd 0.
Proof.
  intros H Hd. rewrite prange_unpack by auto. rewrite <- (unpack_lengths sbd l H) at 2.
  rewrite <- (map_nth (@length A)). cbn. reflexivity.
Qed.

(** * Locating elements *)
Lemma find_section_spec sizes e : e < sum_list sizes ->
  located sizes e (fst (find_section sizes e)) (snd (find_section sizes e)).
Proof.
  unfold located. revert e; induction sizes as [|s r IH]; intros e H; cbn in H; [lia|]. fold (sum_list r) in H. cbn [find_section].
  destruct (s <=? e) eqn:E.
  - apply Nat.leb_le in E. specialize (IH (e - s)). destruct (find_section r (e - s)) as [b o]. cbn [fst snd] in *.
    destruct IH as [I1 [I2 I3]]; [lia|]. cbn [length nth firstn]. rewrite sum_list_cons. repeat split; lia.
  - apply Nat.leb_gt in E. cbn. repeat split; lia.
Qed.
Lemma find_section_unique sizes e b o : located sizes e b o -> find_section sizes e = (b, o).
Proof.
  unfold located. revert e b; induction sizes as [|s r IH]; intros e b [H1 [H2 H3]]; cbn in H1; [lia|].
  destruct b as [|b]; cbn [find_section firstn nth] in *.
  - cbn in H3. subst e. destruct (s <=? o) eqn:E; [apply Nat.leb_le in E; lia|]. reflexivity.
  - rewrite sum_list_cons in H3. destruct (s <=? e) eqn:E; [|apply Nat.leb_gt in E; lia].
    rewrite (IH (e - s) b); [reflexivity|]. repeat split; auto; lia.
Qed.
Lemma located_lt sizes e b o : located sizes e b o -> e < sum_list sizes.
Proof.
  intros [H1 [H2 H3]]. rewrite <- (firstn_skipn b sizes), sum_list_app.
  rewrite <- (firstn_skipn b sizes), app_nth2 in H2; rewrite firstn_length in *; [|lia].
  replace (b - Nat.min b (length sizes)) with 0 in H2 by lia.
  destruct (skipn b sizes) as [|x r]; cbn in H2; [lia|]. rewrite sum_list_cons. lia.
Qed.

Definition join1 (sizes : list nat) (b o : nat) : nat := sum_list (firstn b sizes) + o.

Lemma decompose_unpack sbd ss e : length e = length sbd ->
  element_index_decompose sbd ss e
  = (map (fun p => fst (find_section (fst p) (snd p))) (combine (unpack sbd ss) e),
     map (fun p => snd (find_section (fst p) (snd p))) (combine (unpack sbd ss) e)).
Proof.
  revert ss e; induction sbd as [|n sbd IH]; intros ss [|x e] H; try discriminate; [reflexivity|].
  cbn [element_index_decompose unpack combine map]. rewrite IH by (cbn in H; lia). cbn [fst snd].
  destruct (find_section (firstn n ss) x). reflexivity.
Qed.

Lemma nth_map_combine A B C (f : A * B -> C) l m k da db dc : k < length l -> k < length m ->
  nth k (map f (combine l m)) dc = f (nth k l da, nth k m db).
Proof.
  revert m k; induction l as [|a l IH]; intros [|b m] [|k] H1 H2; cbn in *; try lia; auto. apply IH; lia.
Qed.

Lemma decompose_spec sbd ss e : sum_list sbd = length ss -> length e = length sbd ->
  (forall d, d < length sbd -> nth d e 0 < sum_list (prange sbd ss d)) ->
  let (b, o) := element_index_decompose sbd ss e in
  length b = length sbd /\ length o = length sbd /\
  forall d, d < length sbd -> located (prange sbd ss d) (nth d e 0) (nth d b 0) (nth d o 0).
Proof.
  intros Hs Hl He. rewrite decompose_unpack by auto.
  rewrite !map_length, !combine_length, !unpack_length, Hl, Nat.min_id. repeat split; auto;
  rewrite !nth_map_combine with (da := []) (db := 0) by (rewrite ?unpack_length; lia);
  cbn [fst snd]; rewrite <- prange_unpack by auto; apply find_section_spec; auto.
Qed.

Lemma scan_qtt_spec Q (dflt : Q) qs sizes e : length qs = length sizes -> e < sum_list sizes ->
  scan_qtt qs sizes e = Ok (nth (fst (find_section sizes e)) qs dflt).
Proof.
  revert sizes e; induction qs as [|q qs IH]; intros [|s r] e H He; try discriminate; [cbn in He; lia|].
  cbn [scan_qtt find_section]. destruct (s <=? e) eqn:E; [|reflexivity]. apply Nat.leb_le in E.
  rewrite sum_list_cons in He. rewrite IH by (cbn in H; lia). destruct (find_section r (e - s)). reflexivity.
Qed.

(** * Statements used by Prop_Index *)
Lemma flatten_bijection sh :
  (forall ix, in_range sh ix = true -> cpp_flatten ix sh < prod_list sh /\ cpp_unflatten (cpp_flatten ix sh) sh = ix) /\
  (forall n, n < prod_list sh -> in_range sh (cpp_unflatten n sh) = true /\ cpp_flatten (cpp_unflatten n sh) sh = n) /\
  (forall a b, in_range sh a = true -> in_range sh b = true -> (lex_lt a b <-> cpp_flatten a sh < cpp_flatten b sh)).
Proof.
  split; [|split].
  - intros ix H. pose proof (in_range_length _ _ H). rewrite cpp_flatten_rowmajor by auto. pose proof (rowmajor_lt _ _ H).
    split; auto. rewrite cpp_unflatten_unrank by auto. apply unrank_rowmajor; auto.
  - intros n H. rewrite cpp_unflatten_unrank by auto. pose proof (unrank_in_range _ H) as Hr. split; auto.
    rewrite cpp_flatten_rowmajor by (apply in_range_length; auto). apply rowmajor_unrank; auto.
  - intros a b Ha Hb. pose proof (in_range_length _ _ Ha). pose proof (in_range_length _ _ Hb).
    rewrite !cpp_flatten_rowmajor by auto. rewrite <- lexb_lex_lt by congruence. apply rowmajor_mono; auto.
Qed.
Lemma reshape_index_bijection sh1 sh2 : prod_list sh1 = prod_list sh2 ->
  (forall ix, in_range sh1 ix = true -> in_range sh2 (reshape_block_index4 ix sh2 sh1) = true /\
     reshape_block_index4 (reshape_block_index4 ix sh2 sh1) sh1 sh2 = ix) /\
  (forall a b, in_range sh1 a = true -> in_range sh1 b = true ->
     (lex_lt a b <-> lex_lt (reshape_block_index4 a sh2 sh1) (reshape_block_index4 b sh2 sh1))).
Proof.
  intros E. destruct (flatten_bijection sh1) as [A1 [A2 A3]]. destruct (flatten_bijection sh2) as [B1 [B2 B3]].
  unfold reshape_block_index4. split.
  - intros ix H. destruct (A1 _ H) as [H1 H2]. rewrite E in H1. destruct (B2 _ H1) as [H3 H4]. split; auto.
    rewrite H4. auto.
  - intros a b Ha Hb. destruct (A1 _ Ha) as [H1 _]. destruct (A1 _ Hb) as [H2 _]. rewrite E in H1, H2.
    destruct (B2 _ H1) as [H3 H4]. destruct (B2 _ H2) as [H5 H6]. rewrite A3, B3 by auto. rewrite H4, H6. tauto.
Qed.
Lemma element_qtt Q (dflt : Q) sbd ss cv d e : sum_list sbd = length ss -> length cv = length ss -> d < length sbd ->
  (e < sum_list (prange sbd ss d) ->
   exists b o, located (prange sbd ss d) e b o /\ element_conserved_qtt sbd ss cv d e = Ok (psection dflt sbd cv d b)) /\
  (sum_list (prange sbd ss d) <= e -> element_conserved_qtt sbd ss cv d e = Throw InvalidArgument).
Proof.
  intros H1 H2 Hd. unfold element_conserved_qtt. split; intros He.
  - pose proof (find_section_spec _ He) as Hl. destruct (find_section (prange sbd ss d) e) as [b o] eqn:E. cbn [fst snd] in Hl.
    exists b, o. split; auto. rewrite (proj2 (Nat.leb_gt _ _) He). rewrite scan_qtt_spec with (dflt := dflt); auto.
    + rewrite E. cbn [fst]. f_equal. destruct Hl as [Hl _]. rewrite prange_length in Hl by lia.
      rewrite psection_unpack by auto. rewrite prange_unpack by auto. reflexivity.
    + rewrite !prange_length by lia. reflexivity.
  - rewrite (proj2 (Nat.leb_le _ _) He). reflexivity.
Qed.
Lemma prod_pos l : (forall c, In c l -> 0 < c) -> 0 < prod_list l.
Proof.
  induction l as [|x l IH]; intros H; [cbn; lia|]. rewrite prod_list_cons. assert (0 < x) by (apply H; left; auto).
  assert (0 < prod_list l) by (apply IH; intros; apply H; right; auto). nia.
Qed.
Lemma left_enum_pos sh : (forall c, In c sh -> 0 < c) ->
  let v := visit (inc_left sh) (prod_list sh) (zeros (length sh)) in
  NoDup v /\ (forall ix, In ix v <-> in_range sh ix = true) /\
  Nat.iter (prod_list sh) (inc_left sh) (zeros (length sh)) = zeros (length sh) /\
  (forall n, 0 < n < prod_list sh -> Nat.iter n (inc_left sh) (zeros (length sh)) <> zeros (length sh)).
Proof. intros H. apply left_enum, prod_pos, H. Qed.
Lemma right_enum_pos sh : (forall c, In c sh -> 0 < c) ->
  let v := visit (inc_right sh) (prod_list sh) (zeros (length sh)) in
  NoDup v /\ (forall ix, In ix v <-> in_range sh ix = true) /\
  Nat.iter (prod_list sh) (inc_right sh) (zeros (length sh)) = zeros (length sh) /\
  (forall n, 0 < n < prod_list sh -> Nat.iter n (inc_right sh) (zeros (length sh)) <> zeros (length sh)).
Proof. intros H. apply right_enum, prod_pos, H. Qed.
