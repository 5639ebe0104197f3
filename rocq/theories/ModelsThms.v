(** The Heisenberg and Hubbard chains, and the algebra of the fermion operators. *)
From Verif Require Import Base Ring SpecIndex Index IndexProofs Dense BTensor BTensorArith Tensordot View Models SpecModels ModelsProofs.

Section Thms.
  Context {R : ring}.
  Add Ring Rring2 : (ring_th R).
  Local Open Scope R_scope.
  Notation D := (dense R).

  Lemma rconj_1 : rconj (@ro R) = ro.
  Proof.
    transitivity (rconj (@ro R) * rconj (rconj ro)); [rewrite rconj_conj; ring|].
    rewrite <- rconj_mul, rmul_1_l. apply rconj_conj.
  Qed.
  Lemma rconj_opp (x : R) : rconj (- x) = - rconj x.
  Proof.
    assert (H : rconj x + rconj (- x) = rz) by (rewrite <- rconj_add, radd_opp; apply rconj_0).
    transitivity (- rconj x + (rconj x + rconj (- x))); [ring|]. rewrite H. ring.
  Qed.

  (** One slot of a tensor product. *)
  Definition one1 : mat R := fun _ _ => ro.
  Lemma tensor_slot ms : forall i ps qs, i < length ms -> length ps = length ms -> length qs = length ms ->
    tensor ms ps qs = nth i ms one1 (nth i ps 0) (nth i qs 0) * tensor (upd ms i one1) ps qs.
  Proof.
    induction ms as [|m ms IH]; intros i ps qs Hi Hp Hq; [cbn in Hi; lia|].
    destruct ps as [|p ps]; [discriminate|]. destruct qs as [|q qs]; [discriminate|].
    destruct i as [|i].
    - cbn [nth]. rewrite upd_0, !tensor_cons. unfold one1 at 1. ring.
    - cbn [nth]. rewrite upd_S, !tensor_cons, (IH i) by (cbn in *; lia). ring.
  Qed.
  Lemma tensor_ext d n (ms ms' : list (mat R)) : length ms = n -> length ms' = n ->
    (forall i p q, i < n -> p < d -> q < d -> nth i ms one1 p q = nth i ms' one1 p q) -> ceq d n (tensor ms) (tensor ms').
  Proof.
    revert ms ms'. induction n as [|n IH]; intros [|m ms] [|m' ms'] H1 H2 H ps qs Hp Hq; try discriminate; [reflexivity|].
    destruct ps as [|p ps]; [discriminate|]. destruct qs as [|q qs]; [discriminate|].
    cbn [repeat in_range] in Hp, Hq. apply andb_true_iff in Hp, Hq. destruct Hp as [Hp Hps], Hq as [Hq Hqs]. apply Nat.ltb_lt in Hp, Hq.
    rewrite !tensor_cons. f_equal; [apply (H 0%nat); lia|]. apply IH; auto. intros i p' q' Hi. apply (H (S i)). lia.
  Qed.

  Lemma ceq_refl d n (X : chop R) : ceq d n X X. Proof. intros ps qs _ _. reflexivity. Qed.
  Lemma ceq_sym d n (X Y : chop R) : ceq d n X Y -> ceq d n Y X. Proof. intros H ps qs Hp Hq. symmetry. auto. Qed.
  Lemma ceq_trans d n (X Y Z : chop R) : ceq d n X Y -> ceq d n Y Z -> ceq d n X Z.
  Proof. intros H1 H2 ps qs Hp Hq. rewrite H1, H2; auto. Qed.
  Lemma ceq_cadd d n (X X' Y Y' : chop R) : ceq d n X X' -> ceq d n Y Y' -> ceq d n (cadd X Y) (cadd X' Y').
  Proof. intros H1 H2 ps qs Hp Hq. unfold cadd. rewrite H1, H2; auto. Qed.
  Lemma ceq_csum {A} d n (f g : A -> chop R) l : (forall a, In a l -> ceq d n (f a) (g a)) -> ceq d n (csum f l) (csum g l).
  Proof. intros H ps qs Hp Hq. unfold csum. apply sumf_ext. intros a Ha. apply H; auto. Qed.
  Lemma ceq_cscale d n x (X Y : chop R) : ceq d n X Y -> ceq d n (cscale x X) (cscale x Y).
  Proof. intros H ps qs Hp Hq. unfold cscale. rewrite H; auto. Qed.
  Lemma ceq_cadj d n (X Y : chop R) : ceq d n X Y -> ceq d n (cadj X) (cadj Y).
  Proof. intros H ps qs Hp Hq. unfold cadj. rewrite H; auto. Qed.
  Lemma in_idxs s l : In l (idxs s) <-> in_range s l = true.
  Proof. apply idxs_In. Qed.
  Lemma ceq_cmul d n (X X' Y Y' : chop R) : ceq d n X X' -> ceq d n Y Y' -> ceq d n (cmul d n X Y) (cmul d n X' Y').
  Proof. intros H1 H2 ps qs Hp Hq. unfold cmul. apply sumf_ext. intros rs Hr. apply in_idxs in Hr. rewrite H1, H2; auto. Qed.

  Lemma tensor_mul d n (ms ms' : list (mat R)) : length ms = n -> length ms' = n ->
    ceq d n (cmul d n (tensor ms) (tensor ms')) (tensor (map2 (mmul d) ms ms')).
  Proof.
    revert ms ms'. induction n as [|n IH]; intros [|m ms] [|m' ms'] H1 H2 ps qs Hp Hq; try discriminate.
    - destruct ps; [|discriminate]. destruct qs; [|discriminate]. unfold cmul. cbn [repeat idxs]. rewrite sumf_cons, sumf_nil. cbn. ring.
    - destruct ps as [|p ps]; [discriminate|]. destruct qs as [|q qs]; [discriminate|].
      cbn [repeat in_range] in Hp, Hq. apply andb_true_iff in Hp, Hq. destruct Hp as [Hp Hps], Hq as [Hq Hqs].
      cbn [map2]. rewrite tensor_cons. rewrite <- (IH ms ms') by (auto; cbn in *; lia). unfold mmul, cmul. rewrite sumf_prod.
      cbn [repeat idxs]. rewrite sumf_flat_map. apply sumf_ext. intros r _. rewrite sumf_map. apply sumf_ext. intros rs _.
      rewrite !tensor_cons. ring.
  Qed.
  Lemma tensor_adj d n (ms : list (mat R)) : length ms = n -> ceq d n (cadj (tensor ms)) (tensor (map (@madj R) ms)).
  Proof.
    revert ms. induction n as [|n IH]; intros [|m ms] H1 ps qs Hp Hq; try discriminate.
    - destruct ps; [|discriminate]. destruct qs; [|discriminate]. apply rconj_1.
    - destruct ps as [|p ps]; [discriminate|]. destruct qs as [|q qs]; [discriminate|].
      cbn [repeat in_range] in Hp, Hq. apply andb_true_iff in Hp, Hq. destruct Hp as [Hp Hps], Hq as [Hq Hqs].
      cbn [map]. rewrite tensor_cons, <- (IH ms) by (auto; cbn in *; lia). unfold cadj. rewrite tensor_cons, rconj_mul. reflexivity.
  Qed.
  Lemma map2_map_seq {A B C} (f : A -> B -> C) g h (l : list nat) : map2 f (map g l) (map h l) = map (fun j => f (g j) (h j)) l.
  Proof. induction l; cbn; [reflexivity|]. rewrite IHl. reflexivity. Qed.
  Lemma nth_map_seq {A} (f : nat -> A) n i x : i < n -> nth i (map f (seq 0 n)) x = f i.
  Proof. intros H. rewrite nth_indep with (d' := f 0%nat) by (rewrite map_length, seq_length; lia). rewrite map_nth, seq_nth by lia. reflexivity. Qed.

  (** Tensor products given by a function of the site. *)
  Definition tf (n : nat) (f : nat -> mat R) : chop R := tensor (map f (seq 0 n)).
  Lemma tf_mul d n f g : ceq d n (cmul d n (tf n f) (tf n g)) (tf n (fun j => mmul d (f j) (g j))).
  Proof. unfold tf. rewrite <- map2_map_seq. apply tensor_mul; rewrite map_length, seq_length; reflexivity. Qed.
  Lemma tf_ext d n f g : (forall j p q, j < n -> p < d -> q < d -> f j p q = g j p q) -> ceq d n (tf n f) (tf n g).
  Proof.
    intros H. unfold tf. apply tensor_ext; [rewrite map_length, seq_length; reflexivity..|]. intros i p q Hi Hp Hq.
    rewrite !nth_map_seq by lia. auto.
  Qed.
  Lemma tf_adj d n f : ceq d n (cadj (tf n f)) (tf n (fun j => madj (f j))).
  Proof. unfold tf. eapply ceq_trans; [apply tensor_adj; rewrite map_length, seq_length; reflexivity|]. rewrite map_map. apply ceq_refl. Qed.
  Lemma range_len d n ps : in_range (repeat d n) ps = true -> length ps = n.
  Proof. intros H. apply in_range_length in H. rewrite repeat_length in H. auto. Qed.
  Lemma range_nth d n ps i : in_range (repeat d n) ps = true -> i < n -> nth i ps 0%nat < d.
  Proof. intros H Hi. apply in_range_nth in H. destruct H as [_ H]. specialize (H i). rewrite repeat_length in H. specialize (H Hi). rewrite (nth_indep (repeat d n) 0%nat d) in H by (rewrite repeat_length; auto). rewrite nth_repeat in H. auto. Qed.
  (** Splitting off site [i]. *)
  Definition off (n i : nat) (f : nat -> mat R) : chop R := tf n (fun j => if (j =? i)%nat then one1 else f j).
  Lemma map_upd_seq {A} (f : nat -> A) n i a : i < n -> upd (map f (seq 0 n)) i a = map (fun j => if (j =? i)%nat then a else f j) (seq 0 n).
  Proof.
    revert f i. induction n as [|n IH]; intros f i Hi; [lia|]. rewrite !map_seq_S. destruct i as [|i].
    - rewrite upd_0. cbn. reflexivity.
    - rewrite upd_S, IH by lia. reflexivity.
  Qed.
  Lemma tf_slot d n f i ps qs : i < n -> in_range (repeat d n) ps = true -> in_range (repeat d n) qs = true ->
    tf n f ps qs = f i (nth i ps 0%nat) (nth i qs 0%nat) * off n i f ps qs.
  Proof.
    intros Hi Hp Hq. unfold tf at 1. rewrite (tensor_slot _ i) by (rewrite map_length, seq_length; eauto using range_len).
    rewrite nth_map_seq, map_upd_seq by auto. reflexivity.
  Qed.
  Lemma off_ext d n i f g : (forall j p q, j < n -> j <> i -> p < d -> q < d -> f j p q = g j p q) -> ceq d n (off n i f) (off n i g).
  Proof. intros H. apply tf_ext. intros j p q Hj Hp Hq. destruct (Nat.eqb_spec j i); auto. Qed.

  Lemma on_site_tf n i M : on_site n i M = tf n (fun j => if (j =? i)%nat then M else delta R). Proof. reflexivity. Qed.
  Lemma on_pair_tf n i M N : on_pair n i M N = tf n (fun j => if (j =? i)%nat then M else if (j =? S i)%nat then N else delta R).
  Proof. reflexivity. Qed.
  Lemma with_string_tf n i F M : with_string n i F M = tf n (fun j => if (j <? i)%nat then F else if (j =? i)%nat then M else delta R).
  Proof. reflexivity. Qed.

  Lemma delta_refl a : delta R a a = ro. Proof. unfold delta. rewrite Nat.eqb_refl. reflexivity. Qed.
  Lemma delta_neq a b : a <> b -> delta R a b = rz. Proof. intros H. unfold delta. rewrite (proj2 (Nat.eqb_neq a b) H). reflexivity. Qed.
  Lemma mmul_delta_l d (M : mat R) p q : p < d -> mmul d (delta R) M p q = M p q.
  Proof.
    intros Hp. unfold mmul. rewrite (@sumf_single R _ _ _ p); [rewrite delta_refl; ring|apply seq_NoDup|apply in_seq; lia|].
    intros a _ Ha. rewrite delta_neq by auto. ring.
  Qed.
  Lemma mmul_delta_r d (M : mat R) p q : q < d -> mmul d M (delta R) p q = M p q.
  Proof.
    intros Hq. unfold mmul. rewrite (@sumf_single R _ _ _ q); [rewrite delta_refl; ring|apply seq_NoDup|apply in_seq; lia|].
    intros a _ Ha. rewrite delta_neq by auto. ring.
  Qed.
  Lemma cone_tf d n : ceq d n (@cone R) (tf n (fun _ => delta R)).
  Proof.
    intros ps qs Hp Hq. unfold cone, tf. rewrite !(map_const _ (delta R)) by reflexivity. rewrite seq_length.
    apply range_len in Hp. subst n. reflexivity.
  Qed.

  (** ** Anticommutation of string operators *)
  Section Strings.
    Variables (d n : nat) (F : mat R).
    Hypothesis FF : forall p q, p < d -> q < d -> mmul d F F p q = delta R p q.
    Definition odd (a : mat R) : Prop := forall p q, p < d -> q < d -> madd (mmul d a F) (mmul d F a) p q = rz.

    (** Products of two strings ending at different sites. *)
    Lemma strings_lt i j a b : i < j ->
      ceq d n (cmul d n (with_string n i F a) (with_string n j F b))
        (tf n (fun k => if (k =? i)%nat then mmul d a F else if (k <? i)%nat then delta R else if (k <? j)%nat then F else if (k =? j)%nat then b else delta R)).
    Proof.
      intros Hij. rewrite !with_string_tf. eapply ceq_trans; [apply tf_mul|]. apply tf_ext. intros k p q Hk Hp Hq.
      destruct (Nat.eqb_spec k i) as [->|Ni].
      - rewrite Nat.ltb_irrefl. rewrite (proj2 (Nat.ltb_lt i j) Hij). reflexivity.
      - destruct (Nat.ltb_spec k i) as [Hki|Hki].
        + rewrite (proj2 (Nat.ltb_lt k j)) by lia. apply FF; auto.
        + destruct (k <? j)%nat; [apply mmul_delta_l; auto|]. destruct (k =? j)%nat; apply mmul_delta_l; auto.
    Qed.
    Lemma strings_gt i j a b : i < j ->
      ceq d n (cmul d n (with_string n j F b) (with_string n i F a))
        (tf n (fun k => if (k =? i)%nat then mmul d F a else if (k <? i)%nat then delta R else if (k <? j)%nat then F else if (k =? j)%nat then b else delta R)).
    Proof.
      intros Hij. rewrite !with_string_tf. eapply ceq_trans; [apply tf_mul|]. apply tf_ext. intros k p q Hk Hp Hq.
      destruct (Nat.eqb_spec k i) as [->|Ni].
      - rewrite Nat.ltb_irrefl. rewrite (proj2 (Nat.ltb_lt i j) Hij). reflexivity.
      - destruct (Nat.ltb_spec k i) as [Hki|Hki].
        + rewrite (proj2 (Nat.ltb_lt k j)) by lia. apply FF; auto.
        + destruct (k <? j)%nat; [apply mmul_delta_r; auto|]. destruct (k =? j)%nat; apply mmul_delta_r; auto.
    Qed.
    Lemma strings_eq i a b :
      ceq d n (cmul d n (with_string n i F a) (with_string n i F b)) (on_site n i (mmul d a b)).
    Proof.
      rewrite !with_string_tf, on_site_tf. eapply ceq_trans; [apply tf_mul|]. apply tf_ext. intros k p q Hk Hp Hq.
      destruct (Nat.eqb_spec k i) as [->|Ni]; [rewrite Nat.ltb_irrefl; reflexivity|].
      destruct (k <? i)%nat; [apply FF; auto|apply mmul_delta_l; auto].
    Qed.
    Lemma anti_lt i j a b : i < j -> j < n -> odd a -> ceq d n (anti d n (with_string n i F a) (with_string n j F b)) (czero R).
    Proof.
      intros Hij Hj Ha ps qs Hp Hq. unfold anti, cadd, czero. rewrite strings_lt, strings_gt by auto.
      rewrite !(tf_slot d n _ i) by (auto; lia). rewrite !Nat.eqb_refl.
      rewrite (off_ext d n i _ (fun k => if (k =? i)%nat then mmul d F a else if (k <? i)%nat then delta R else if (k <? j)%nat then F else if (k =? j)%nat then b else delta R)); auto.
      2:{ intros k p q _ Hk _ _. rewrite (proj2 (Nat.eqb_neq k i) Hk). reflexivity. }
      rewrite <- rdistr. match goal with |- ?x * _ = _ => replace x with (@rz R) end; [ring|]. symmetry.
      apply Ha; apply (range_nth d n); auto; lia.
    Qed.
    Lemma anti_comm (X Y : chop R) ps qs : anti d n X Y ps qs = anti d n Y X ps qs.
    Proof. unfold anti, cadd. apply radd_comm. Qed.
    Lemma anti_strings i j a b (k : R) : i < n -> j < n -> odd a -> odd b ->
      (forall p q, p < d -> q < d -> madd (mmul d a b) (mmul d b a) p q = k * delta R p q) ->
      ceq d n (anti d n (with_string n i F a) (with_string n j F b)) (if (i =? j)%nat then cscale k (@cone R) else czero R).
    Proof.
      intros Hi Hj Ha Hb H. destruct (Nat.eqb_spec i j) as [->|N].
      - intros ps qs Hp Hq. unfold anti, cadd, cscale. rewrite !strings_eq by auto. rewrite (cone_tf d n) by auto.
        rewrite !on_site_tf. rewrite !(tf_slot d n _ j) by auto. rewrite !Nat.eqb_refl.
        rewrite (off_ext d n j _ (fun _ => delta R)); auto. 2:{ intros x p q _ Hx _ _. rewrite (proj2 (Nat.eqb_neq x j) Hx). reflexivity. }
        rewrite (off_ext d n j (fun j0 => if (j0 =? j)%nat then mmul d b a else delta R) (fun _ => delta R)); auto.
        2:{ intros x p q _ Hx _ _. rewrite (proj2 (Nat.eqb_neq x j) Hx). reflexivity. }
        rewrite <- rdistr. rewrite rmul_assoc. f_equal. apply H; apply (range_nth d n); auto.
      - destruct (Nat.lt_ge_cases i j).
        + apply anti_lt; auto.
        + intros ps qs Hp Hq. rewrite anti_comm. apply anti_lt; auto; lia.
    Qed.
    Hypothesis Fadj : forall p q, p < d -> q < d -> madj F p q = F p q.
    Lemma string_adj i a : ceq d n (cadj (with_string n i F a)) (with_string n i F (madj a)).
    Proof.
      rewrite !with_string_tf. eapply ceq_trans; [apply tf_adj|]. apply tf_ext. intros j p q Hj Hp Hq.
      destruct (j <? i)%nat; [apply Fadj; auto|]. destruct (j =? i)%nat; [reflexivity|].
      unfold madj, delta. rewrite (Nat.eqb_sym q p). destruct (p =? q)%nat; [apply rconj_1|apply rconj_0].
    Qed.
  End Strings.
End Thms.
