(** The generalised contraction: values, storage, and the variant that counts dimensions. *)
From Verif Require Import Base FlatMap FlatMapProofs Ring Index SpecIndex IndexProofs Dense BTensor SpecBTensor LegsProofs BTensorProofs
  BTensorArith ArithProofs Tensordot SpecTensordot TensordotProofs TensordotThms Chain ChainProofs ChainInst SvdDense Gdot SpecGdot GdotProofs.
Set Implicit Arguments.

Section Storage.
  Variable R : ring.
  Notation mem := (nat -> R).

  Lemma decode_inv sh n : n < prod_list sh -> in_range sh (decode sh n) = true /\ rowmajor sh (decode sh n) = n.
  Proof. intros H. rewrite decode_unrank. split; [apply unrank_in_range|apply rowmajor_unrank]; exact H. Qed.

  Definition views (v w : strided) n1 n2 : Prop :=
    s_sh w = [n1; n2] /\ forall x y, x < n1 -> y < n2 -> addr w [x; y] = addr v (decode (s_sh v) (x * n2 + y)).
  Lemma reshape_some v n1 n2 w : reshape_view v n1 n2 = Some w -> views v w n1 n2.
  Proof.
    unfold reshape_view; cbv zeta. destruct (forallb _ _) eqn:F; [|discriminate]. intros [= <-]. split; [reflexivity|]. intros x y Hx Hy.
    rewrite forallb_forall in F. specialize (F [x; y]).
    assert (I : In [x; y] (idxs [n1; n2])) by (apply idxs_In; cbn; rewrite !(proj2 (Nat.ltb_lt _ _)) by auto; reflexivity).
    apply F in I. apply Nat.eqb_eq in I. etransitivity; [exact I|]. do 2 f_equal. cbn. lia.
  Qed.
  Lemma addr2 sh r c o x y : addr (mkS sh [r; c] o) [x; y] = o + x * r + y * c.
  Proof. unfold addr. cbn. lia. Qed.
  Lemma some_like v n1 n2 w : reshape_view v n1 n2 = Some w -> matrix_like v n1 n2.
  Proof.
    intros H. pose proof (reshape_some _ _ _ H) as [_ V]. unfold reshape_view in H; cbv zeta in H. destruct (forallb _ _); [|discriminate]. injection H as <-.
    eexists. eexists. intros i x y Hi Hx Hy E. specialize (V x y Hx Hy). rewrite addr2 in V. rewrite V, <- E, decode_rowmajor; auto.
  Qed.
  Lemma like_some v n1 n2 : prod_list (s_sh v) = n1 * n2 -> matrix_like v n1 n2 -> exists w, reshape_view v n1 n2 = Some w.
  Proof.
    intros Hp (r & c & H). unfold reshape_view; cbv zeta. destruct (forallb _ _) eqn:F; [eauto|]. exfalso. apply not_true_iff_false in F. apply F. clear F.
    assert (V : forall x y, x < n1 -> y < n2 -> addr v (decode (s_sh v) (x * n2 + y)) = s_off v + x * r + y * c).
    { intros x y Hx Hy. assert (B : x * n2 + y < prod_list (s_sh v)) by nia. destruct (decode_inv _ B) as [B1 B2]. apply H; auto. }
    apply forallb_forall. intros i Hi. apply idxs_In in Hi. destruct i as [|x [|y [|z i]]]; try discriminate; [cbn in Hi; rewrite andb_false_r in Hi; discriminate| |cbn in Hi; rewrite !andb_false_r in Hi; discriminate].
    cbn [in_range] in Hi. rewrite andb_true_r in Hi. apply andb_true_iff in Hi. destruct Hi as [Hx Hy]. apply Nat.ltb_lt in Hx. apply Nat.ltb_lt in Hy.
    apply Nat.eqb_eq. rewrite addr2.
    assert (RM : forall a b, rowmajor [n1; n2] [a; b] = a * n2 + b) by (intros; cbn; lia). rewrite !RM.
    rewrite (V x y Hx Hy). destruct x as [|x].
    - destruct y as [|y]; [lia|]. rewrite (V 0 1) by lia. nia.
    - rewrite (V 1 0) by lia. destruct y as [|y]; [nia|]. rewrite (V 0 1) by lia. nia.
  Qed.
  Lemma contiguous_like v n1 n2 : contiguous v -> matrix_like v n1 n2.
  Proof. intros H. exists n2, 1. intros i x y Hi Hx Hy E. rewrite H, E by auto. lia. Qed.
  Lemma contiguous_separate v : contiguous v -> separate v.
  Proof. intros H i j Hi Hj E. rewrite !H in E by auto. apply (rowmajor_inj (s_sh v)); auto. lia. Qed.

  Lemma store_out (m : mem) v d p : (forall i, in_range (s_sh v) i = true -> addr v i <> p) -> store m v d p = m p.
  Proof.
    intros H. unfold store. destruct (find _ _) as [i|] eqn:E; [|reflexivity]. apply find_some in E. destruct E as [E1 E2].
    apply idxs_In in E1. apply Nat.eqb_eq in E2. destruct (H i E1 E2).
  Qed.
  Lemma store_in (m : mem) v d i : separate v -> in_range (s_sh v) i = true -> store m v d (addr v i) = dv d i.
  Proof.
    intros S Hi. unfold store. destruct (find _ _) as [j|] eqn:E.
    - apply find_some in E. destruct E as [E1 E2]. apply idxs_In in E1. apply Nat.eqb_eq in E2. f_equal. apply S; auto.
    - apply find_none with (x := i) in E; [|apply idxs_In; auto]. apply Nat.eqb_neq in E. congruence.
  Qed.

  (** A result written through the matrix view of [v]. *)
  Lemma pos2 n1 n2 k : k < n1 * n2 -> k / n2 < n1 /\ k mod n2 < n2 /\ k = k / n2 * n2 + k mod n2.
  Proof.
    intros H. assert (n2 <> 0) by (destruct n2; lia). pose proof (Nat.div_mod k n2 H0). pose proof (Nat.mod_upper_bound k n2 H0). repeat split; try lia.
    apply Nat.div_lt_upper_bound; lia.
  Qed.
  Lemma write_ok (m : mem) v n1 n2 r : separate v -> prod_list (s_sh v) = n1 * n2 -> matrix_like v n1 n2 ->
    (forall i x y, in_range (s_sh v) i = true -> x < n1 -> y < n2 -> rowmajor (s_sh v) i = x * n2 + y -> dv (load (write_reshaped m v n1 n2 r) v) i = dv r [x; y]) /\
    untouched m (write_reshaped m v n1 n2 r) v.
  Proof.
    intros S Hp M. destruct (like_some Hp M) as (w & E). unfold write_reshaped. rewrite E. destruct (reshape_some _ _ _ E) as [Ew V].
    assert (Sw : separate w).
    { intros i j Hi Hj Ea. rewrite Ew in Hi, Hj. 
      assert (Z : forall l, in_range [n1; n2] l = true -> exists x y, l = [x; y] /\ x < n1 /\ y < n2).
      { intros l Hl. destruct l as [|x [|y [|z l]]]; try discriminate; [cbn in Hl; rewrite andb_false_r in Hl; discriminate| |cbn in Hl; rewrite !andb_false_r in Hl; discriminate].
        exists x, y. cbn in Hl. rewrite andb_true_r in Hl. apply andb_true_iff in Hl. destruct Hl as [H1 H2]. apply Nat.ltb_lt in H1. apply Nat.ltb_lt in H2. auto. }
      destruct (Z _ Hi) as (x & y & -> & Hx & Hy). destruct (Z _ Hj) as (x' & y' & -> & Hx' & Hy'). rewrite !V in Ea by auto.
      assert (B : x * n2 + y < prod_list (s_sh v)) by nia. assert (B' : x' * n2 + y' < prod_list (s_sh v)) by nia.
      destruct (decode_inv _ B) as [B1 B2]. destruct (decode_inv _ B') as [B1' B2']. apply S in Ea; auto. rewrite Ea in B2.
      assert (x = x') by nia. subst x'. assert (y = y') by lia. subst. reflexivity. }
    split.
    - intros i x y Hi Hx Hy Ei. cbn [load dv]. replace (addr v i) with (addr w [x; y]) by (rewrite V, <- Ei, decode_rowmajor by auto; reflexivity).
      apply store_in; auto. rewrite Ew. cbn. rewrite !(proj2 (Nat.ltb_lt _ _)) by auto. reflexivity.
    - intros p Hn. apply store_out. intros i Hi. rewrite Ew in Hi.
      destruct i as [|x [|y [|z i]]]; try discriminate; [cbn in Hi; rewrite andb_false_r in Hi; discriminate| |cbn in Hi; rewrite !andb_false_r in Hi; discriminate].
      cbn in Hi. rewrite andb_true_r in Hi. apply andb_true_iff in Hi. destruct Hi as [H1 H2]. apply Nat.ltb_lt in H1. apply Nat.ltb_lt in H2. rewrite V by auto.
      apply Hn, decode_inv. nia.
  Qed.
  Lemma write_lost (m : mem) v n1 n2 r : ~ matrix_like v n1 n2 -> write_reshaped m v n1 n2 r = m.
  Proof. intros H. unfold write_reshaped. destruct (reshape_view v n1 n2) as [w|] eqn:E; [|reflexivity]. destruct H. exact (some_like _ _ _ E). Qed.
End Storage.

Section Main.
  Variable R : ring.
  Add Ring Rr : (ring_th R).
  Notation mem := (nat -> R).
  Implicit Types A B C P D : dense R.

  (** [addmm] on a matrix form of [C]. *)
  Lemma addmm_of (C r a b : dense R) n1 n2 beta alpha : t_mm a b = Ok r -> dsh r = [n1; n2] -> prod_list (dsh C) = n1 * n2 ->
    exists c q, t_reshape [n1; n2] C = Ok c /\ t_gaddmm c a b beta alpha = Ok q /\ dsh q = [n1; n2] /\
      forall i x y, in_range (dsh C) i = true -> y < n2 -> rowmajor (dsh C) i = x * n2 + y -> dv q [x; y] = radd (rmul beta (dv C i)) (rmul alpha (dv r [x; y])).
  Proof.
    intros Em Er Hp. unfold t_reshape. replace (prod_list [n1; n2]) with (n1 * n2) by (cbn; lia). rewrite Hp, Nat.eqb_refl.
    eexists. eexists. split; [reflexivity|]. unfold t_gaddmm. rewrite Em. cbn [rbind d_reshape dsh]. rewrite Er, leqb_refl. split; [reflexivity|]. split; [reflexivity|].
    intros i x y Hi Hy Ei. cbn [d_zip d_reshape dv]. replace (rowmajor [n1; n2] [x; y]) with (x * n2 + y) by (cbn; lia). rewrite <- Ei, decode_rowmajor by auto. reflexivity.
  Qed.

  Lemma gdot_value C A B d1 d2 beta alpha P : t_tdot A B d1 d2 = Ok P -> dsh C = dsh P ->
    exists D, tensorgdot C A B d1 d2 beta alpha = Ok D /\ combination beta alpha C P D.
  Proof.
    intros H E. destruct (@tdot_inv R A B d1 d2 P H) as (L & _). destruct (@product R A B d1 d2 P H) as (p & a & b & r & Ec & Em & Es & Ep & Er & Dr & _ & _ & V).
    destruct (@addmm_of C r a b (pl_m p) (pl_n p) beta alpha Er Dr (eq_trans (f_equal _ E) Ep)) as (c & q & E1 & E2 & Dq & Vq).
    unfold tensorgdot. rewrite L, Nat.eqb_refl. cbn [negb]. rewrite E, Ec. cbn [rbind]. rewrite Em. cbn [rbind]. rewrite E1. cbn [rbind]. rewrite E2. cbn [rbind]. rewrite Es.
    destruct (@reshape_mat R (pl_m p) (pl_n p) (dsh P) q Dq Ep) as (D & E3 & DD & VD). exists D. split; [exact E3|]. split; [congruence|].
    intros i Hi. rewrite E in Hi. pose proof (rowmajor_lt _ _ Hi) as B0. rewrite Ep in B0. destruct (pos2 _ _ B0) as (Hx & Hy & Ei).
    rewrite (VD i _ _ Ei Hy). rewrite (Vq i _ _) by (rewrite ?E; auto). rewrite (V i _ _ Hi Hy Ei). reflexivity.
  Qed.
  Lemma gdot_rejects C A B d1 d2 beta alpha : (forall P, t_tdot A B d1 d2 = Ok P -> dsh P <> dsh C) -> tensorgdot C A B d1 d2 beta alpha = Throw TorchError.
  Proof. intros H. unfold tensorgdot. destruct (negb _); auto. rewrite no_plan by exact H. reflexivity. Qed.

  (** The number of rows and columns of the matrix the result is written through. *)
  Lemma in_value (m : mem) out A B d1 d2 beta alpha P : t_tdot A B d1 d2 = Ok P -> s_sh out = dsh P -> separate out ->
    matrix_like out (prod_list (gather 0 (free (length (dsh A)) d1) (dsh A))) (prod_list (gather 0 (free (length (dsh B)) d2) (dsh B))) ->
    exists m', tensorgdot_in m out A B d1 d2 beta alpha = Ok m' /\ holds m m' out beta alpha (load m out) P.
  Proof.
    intros H E S M. destruct (@product R A B d1 d2 P H) as (p & a & b & r & Ec & Em & Es & Ep & Er & Dr & Z1 & Z2 & V). rewrite <- Z1, <- Z2 in M.
    destruct (@addmm_of (load m out) r a b (pl_m p) (pl_n p) beta alpha Er Dr (eq_trans (f_equal _ E) Ep)) as (c & q & E1 & E2 & Dq & Vq).
    unfold tensorgdot_in. rewrite E, Ec. cbn [rbind]. rewrite Em. cbn [rbind]. rewrite E1. cbn [rbind]. rewrite E2. cbn [rbind]. eexists. split; [reflexivity|].
    destruct (write_ok m q S (eq_trans (f_equal _ E) Ep) M) as [W1 W2]. split; [|exact W2]. split; [reflexivity|].
    intros i Hi. cbn [load dsh] in Hi. assert (Hi' : in_range (dsh P) i = true) by (rewrite <- E; exact Hi).
    pose proof (rowmajor_lt _ _ Hi') as B0. rewrite Ep in B0. destruct (pos2 _ _ B0) as (Hx & Hy & Ei).
    assert (Ei' := Ei). rewrite <- E in Ei' at 1. rewrite (W1 i _ _ Hi Hx Hy Ei'). rewrite (Vq i _ _ Hi Hy Ei'). rewrite (V i _ _ Hi' Hy Ei). reflexivity.
  Qed.
  Lemma in_lost (m : mem) out A B d1 d2 beta alpha P : t_tdot A B d1 d2 = Ok P -> s_sh out = dsh P ->
    ~ matrix_like out (prod_list (gather 0 (free (length (dsh A)) d1) (dsh A))) (prod_list (gather 0 (free (length (dsh B)) d2) (dsh B))) ->
    tensorgdot_in m out A B d1 d2 beta alpha = Ok m.
  Proof.
    intros H E M. destruct (@product R A B d1 d2 P H) as (p & a & b & r & Ec & Em & Es & Ep & Er & Dr & Z1 & Z2 & V). rewrite <- Z1, <- Z2 in M.
    destruct (@addmm_of (load m out) r a b (pl_m p) (pl_n p) beta alpha Er Dr (eq_trans (f_equal _ E) Ep)) as (c & q & E1 & E2 & Dq & Vq).
    unfold tensorgdot_in. rewrite E, Ec. cbn [rbind]. rewrite Em. cbn [rbind]. rewrite E1. cbn [rbind]. rewrite E2. cbn [rbind]. rewrite write_lost by exact M. reflexivity.
  Qed.
  Lemma in_rejects (m : mem) out A B d1 d2 beta alpha : (forall P, t_tdot A B d1 d2 = Ok P -> dsh P <> s_sh out) -> tensorgdot_in m out A B d1 d2 beta alpha = Throw TorchError.
  Proof. intros H. unfold tensorgdot_in. rewrite no_plan by exact H. reflexivity. Qed.

  Lemma out_value (m : mem) out C A B d1 d2 beta alpha P : t_tdot A B d1 d2 = Ok P -> dsh C = dsh P -> s_sh out = dsh P -> separate out ->
    matrix_like out (prod_list (gather 0 (free (length (dsh A)) d1) (dsh A))) (prod_list (gather 0 (free (length (dsh B)) d2) (dsh B))) ->
    exists m', tensorgdot_out m out C A B d1 d2 beta alpha = Ok m' /\ holds m m' out beta alpha C P.
  Proof.
    intros H EC E S M. destruct (@product R A B d1 d2 P H) as (p & a & b & r & Ec & Em & Es & Ep & Er & Dr & Z1 & Z2 & V). rewrite <- Z1, <- Z2 in M.
    destruct (@addmm_of C r a b (pl_m p) (pl_n p) beta alpha Er Dr (eq_trans (f_equal _ EC) Ep)) as (c & q & E1 & E2 & Dq & Vq).
    destruct (@addmm_of (load m out) r a b (pl_m p) (pl_n p) beta alpha Er Dr (eq_trans (f_equal _ E) Ep)) as (c0 & q0 & E0 & _ & _ & _).
    unfold tensorgdot_out. rewrite EC, Ec. cbn [rbind]. rewrite Em. cbn [rbind]. rewrite E0. cbn [rbind]. rewrite E1. cbn [rbind]. rewrite E2. cbn [rbind]. eexists. split; [reflexivity|].
    destruct (write_ok m q S (eq_trans (f_equal _ E) Ep) M) as [W1 W2]. split; [|exact W2]. split; [cbn; congruence|].
    intros i Hi. assert (Hi' : in_range (dsh P) i = true) by (rewrite <- EC; exact Hi). assert (Ho : in_range (s_sh out) i = true) by (rewrite E; exact Hi').
    pose proof (rowmajor_lt _ _ Hi') as B0. rewrite Ep in B0. destruct (pos2 _ _ B0) as (Hx & Hy & Ei).
    assert (Eo := Ei). rewrite <- E in Eo at 1. assert (Eq := Ei). rewrite <- EC in Eq at 1.
    rewrite (W1 i _ _ Ho Hx Hy Eo). rewrite (Vq i _ _ Hi Hy Eq). rewrite (V i _ _ Hi' Hy Ei). reflexivity.
  Qed.
  Lemma out_lost (m : mem) out C A B d1 d2 beta alpha P : t_tdot A B d1 d2 = Ok P -> dsh C = dsh P -> s_sh out = dsh P ->
    ~ matrix_like out (prod_list (gather 0 (free (length (dsh A)) d1) (dsh A))) (prod_list (gather 0 (free (length (dsh B)) d2) (dsh B))) ->
    tensorgdot_out m out C A B d1 d2 beta alpha = Ok m.
  Proof.
    intros H EC E M. destruct (@product R A B d1 d2 P H) as (p & a & b & r & Ec & Em & Es & Ep & Er & Dr & Z1 & Z2 & V). rewrite <- Z1, <- Z2 in M.
    destruct (@addmm_of C r a b (pl_m p) (pl_n p) beta alpha Er Dr (eq_trans (f_equal _ EC) Ep)) as (c & q & E1 & E2 & Dq & Vq).
    destruct (@addmm_of (load m out) r a b (pl_m p) (pl_n p) beta alpha Er Dr (eq_trans (f_equal _ E) Ep)) as (c0 & q0 & E0 & _ & _ & _).
    unfold tensorgdot_out. rewrite EC, Ec. cbn [rbind]. rewrite Em. cbn [rbind]. rewrite E0. cbn [rbind]. rewrite E1. cbn [rbind]. rewrite E2. cbn [rbind].
    rewrite write_lost by exact M. reflexivity.
  Qed.
  (** The output of [tensorgdot_out] is only asked to have as many elements as the result. *)
  Lemma out_any_shape (m : mem) out C A B d1 d2 beta alpha P : t_tdot A B d1 d2 = Ok P -> dsh C = dsh P -> prod_list (s_sh out) = prod_list (dsh P) -> contiguous out ->
    exists m', tensorgdot_out m out C A B d1 d2 beta alpha = Ok m' /\
      forall i, in_range (s_sh out) i = true -> let j := decode (dsh P) (rowmajor (s_sh out) i) in
        dv (load m' out) i = radd (rmul beta (dv C j)) (rmul alpha (dv P j)).
  Proof.
    intros H EC E K. destruct (@product R A B d1 d2 P H) as (p & a & b & r & Ec & Em & Es & Ep & Er & Dr & Z1 & Z2 & V).
    destruct (@addmm_of C r a b (pl_m p) (pl_n p) beta alpha Er Dr (eq_trans (f_equal _ EC) Ep)) as (c & q & E1 & E2 & Dq & Vq).
    destruct (@addmm_of (load m out) r a b (pl_m p) (pl_n p) beta alpha Er Dr (eq_trans E Ep)) as (c0 & q0 & E0 & _ & _ & _).
    unfold tensorgdot_out. rewrite EC, Ec. cbn [rbind]. rewrite Em. cbn [rbind]. rewrite E0. cbn [rbind]. rewrite E1. cbn [rbind]. rewrite E2. cbn [rbind]. eexists. split; [reflexivity|].
    destruct (write_ok m q (contiguous_separate K) (eq_trans E Ep) (contiguous_like _ _ K)) as [W1 _].
    intros i Hi. cbv zeta. set (j := decode (dsh P) (rowmajor (s_sh out) i)). pose proof (rowmajor_lt _ _ Hi) as B0. rewrite E in B0. destruct (decode_inv _ B0) as [Hj Ej]. fold j in Hj, Ej.
    rewrite Ep in B0. destruct (pos2 _ _ B0) as (Hx & Hy & Ei). rewrite (W1 i _ _ Hi Hx Hy Ei).
    rewrite <- Ej in Ei at 1. assert (Eq := Ei). rewrite <- EC in Eq at 1.
    rewrite (Vq j _ _) by (rewrite ?EC; auto). rewrite (V j _ _ Hj Hy Ei). reflexivity.
  Qed.
End Main.

(** The variant that contracts the last dimensions of the first tensor with the first ones of the second. *)
Section Count.
  Variable R : ring.
  Add Ring Rr2 : (ring_th R).
  Notation mem := (nat -> R).
  Implicit Types A B C P D : dense R.

  Lemma gather_seq (l : list nat) : forall a k, a + k <= length l -> gather 0 (seq a k) l = firstn k (skipn a l).
  Proof.
    intros a k H. apply nth_ext with (d := 0) (d' := 0).
    - rewrite gather_length, seq_length, firstn_length, skipn_length. lia.
    - intros j Hj. rewrite gather_length, seq_length in Hj. rewrite nth_gather by (rewrite seq_length; auto). rewrite seq_nth by auto.
      rewrite <- (firstn_skipn a l) at 1. rewrite app_nth2; rewrite firstn_length_le by lia; [|lia]. replace (a + j - a) with j by lia.
      rewrite <- (firstn_skipn k (skipn a l)) at 1. rewrite app_nth1; auto. rewrite firstn_length, skipn_length. lia.
  Qed.
  Lemma filter_all X (f : X -> bool) l : (forall x, In x l -> f x = true) -> filter f l = l.
  Proof. induction l as [|x l IH]; cbn; auto. intros H. rewrite H by auto. rewrite IH; auto. Qed.
  Lemma filter_none X (f : X -> bool) l : (forall x, In x l -> f x = false) -> filter f l = [].
  Proof. induction l as [|x l IH]; cbn; auto. intros H. rewrite H by auto. apply IH; auto. Qed.
  Lemma free_last n k : k <= n -> free n (seq (n - k) k) = seq 0 (n - k).
  Proof.
    intros H. unfold free. replace n with ((n - k) + k) at 1 by lia. rewrite seq_app, filter_app. cbn [Nat.add].
    rewrite filter_all, filter_none, app_nil_r; auto; intros x Hx; apply in_seq in Hx.
    - apply negb_false_iff, existsb_eqb, in_seq. lia.
    - apply negb_true_iff, existsb_eqb_false. rewrite in_seq. lia.
  Qed.
  Lemma free_first n k : k <= n -> free n (seq 0 k) = seq k (n - k).
  Proof.
    intros H. unfold free. replace n with (k + (n - k)) at 1 by lia. rewrite seq_app, filter_app. cbn [Nat.add].
    rewrite filter_none, filter_all; auto; intros x Hx; apply in_seq in Hx.
    - apply negb_true_iff, existsb_eqb_false. rewrite in_seq. lia.
    - apply negb_false_iff, existsb_eqb, in_seq. lia.
  Qed.
  Lemma gather_inv_id (l : list nat) n : length l = n -> gather 0 (inv_perm (seq 0 n)) l = l.
  Proof.
    intros H. apply nth_ext with (d := 0) (d' := 0); [unfold inv_perm; rewrite gather_length, map_length, !seq_length; auto|].
    intros j Hj. unfold inv_perm in *. rewrite gather_length, map_length, !seq_length in Hj. rewrite nth_gather by (rewrite map_length, !seq_length; auto).
    f_equal. rewrite seq_length. rewrite (nth_indep _ 0 (index_of 0 (seq 0 n))) by (rewrite map_length, seq_length; auto).
    rewrite (map_nth (fun k => index_of k (seq 0 n)) (seq 0 n) 0 j). rewrite seq_nth by auto. cbn [Nat.add].
    assert (I : In j (seq 0 n)) by (apply in_seq; lia). destruct (index_of_spec _ _ I) as [I1 I2]. rewrite seq_length in I1. rewrite seq_nth in I2 by auto. lia.
  Qed.
  Lemma coords_last n k c i : k <= n -> length i = n - k -> length c = k -> coords n (seq (n - k) k) c i = i ++ c.
  Proof.
    intros H Hi Hc. rewrite coords_l by (try apply seq_NoDup; try (intros x Hx; apply in_seq in Hx; lia); rewrite free_last, seq_length by lia; auto).
    rewrite free_last by lia. replace (seq (n - k) k) with (seq (0 + (n - k)) k) by reflexivity. rewrite <- seq_app. apply gather_inv_id. rewrite app_length. lia.
  Qed.
  Lemma coords_first n k c i : k <= n -> length i = n - k -> length c = k -> coords n (seq 0 k) c i = c ++ i.
  Proof.
    intros H Hi Hc. rewrite coords_r by (try apply seq_NoDup; try (intros x Hx; apply in_seq in Hx; lia); rewrite seq_length; auto).
    rewrite free_first by lia. replace (seq k (n - k)) with (seq (0 + k) (n - k)) by reflexivity. rewrite <- seq_app. apply gather_inv_id. rewrite app_length. lia.
  Qed.

  Variables A B : dense R.
  Variable k : nat.
  Notation n1 := (length (dsh A)).
  Notation n2 := (length (dsh B)).
  Hypothesis K1 : k <= n1.
  Hypothesis K2 : k <= n2.
  Notation f1 := (firstn (n1 - k) (dsh A)).
  Notation f2 := (skipn k (dsh B)).
  Notation kk := (skipn (n1 - k) (dsh A)).

  Lemma count_tdot : kk = firstn k (dsh B) -> exists P, t_tdot A B (seq (n1 - k) k) (seq 0 k) = Ok P /\ dsh P = f1 ++ f2 /\
    forall i j, in_range f1 i = true -> in_range f2 j = true ->
      dv P (i ++ j) = sumf R (fun c => rmul (dv A (i ++ c)) (dv B (c ++ j))) (idxs kk).
  Proof.
    intros E. 
    assert (G1 : gather 0 (seq (n1 - k) k) (dsh A) = kk) by (rewrite gather_seq by lia; apply firstn_all2; rewrite skipn_length; lia).
    assert (G2 : gather 0 (seq 0 k) (dsh B) = kk) by (rewrite gather_seq by lia; cbn [skipn]; auto).
    assert (G3 : gather 0 (seq 0 (n1 - k)) (dsh A) = f1) by (rewrite gather_seq by lia; reflexivity).
    assert (G4 : gather 0 (seq k (n2 - k)) (dsh B) = f2) by (rewrite gather_seq by lia; apply firstn_all2; rewrite skipn_length; lia).
    unfold t_tdot. rewrite !seq_length, Nat.eqb_refl.
    replace (bitset_ok (seq (n1 - k) k) n1) with true by (symmetry; apply bitset_ok_spec; split; [apply seq_NoDup|intros x Hx; apply in_seq in Hx; lia]).
    replace (bitset_ok (seq 0 k) n2) with true by (symmetry; apply bitset_ok_spec; split; [apply seq_NoDup|intros x Hx; apply in_seq in Hx; lia]).
    cbn [negb orb]. rewrite G1, G2.
    replace (forallb (fun '(x, y) => (x =? y) || (x =? 1) || (y =? 1)) (combine kk kk)) with true
      by (symmetry; generalize kk; intros l; induction l as [|x l IH]; cbn; auto; rewrite Nat.eqb_refl; auto).
    cbn [negb]. rewrite free_last, free_first, G3, G4 by lia. eexists. split; [reflexivity|]. split; [reflexivity|].
    intros i j Hi Hj. cbn [dv]. pose proof (in_range_length _ _ Hi) as Li. rewrite firstn_length_le in Li by lia.
    pose proof (in_range_length _ _ Hj) as Lj. rewrite skipn_length in Lj.
    rewrite seq_length, <- Li, firstn_mid, skipn_mid. rewrite bsize_same. apply sumf_ext. intros c Hc. apply idxs_In in Hc.
    rewrite (clamp_same _ _ Hc). pose proof (in_range_length _ _ Hc) as Lc. rewrite skipn_length in Lc.
    rewrite Li, coords_last, coords_first by lia. reflexivity.
  Qed.

  Lemma count_value (m : mem) out beta alpha P : kk = firstn k (dsh B) -> t_tdot A B (seq (n1 - k) k) (seq 0 k) = Ok P -> s_sh out = dsh P ->
    exists q, tensorgdot_count m out A B k beta alpha = Ok (write_reshaped m out (prod_list f1) (prod_list f2) q) /\ prod_list (s_sh out) = prod_list f1 * prod_list f2 /\
      forall i x y, in_range (s_sh out) i = true -> y < prod_list f2 -> rowmajor (s_sh out) i = x * prod_list f2 + y ->
        dv q [x; y] = radd (rmul beta (dv (load m out) i)) (rmul alpha (dv P i)).
  Proof.
    intros E HP Eo. destruct (count_tdot E) as (P' & HP' & DP & VP). rewrite HP in HP'. injection HP' as <-.
    assert (EA : dsh A = f1 ++ kk) by (symmetry; apply firstn_skipn). assert (EB : dsh B = kk ++ f2) by (rewrite E; symmetry; apply firstn_skipn).
    assert (LA : prod_list (dsh A) = prod_list f1 * prod_list kk) by (rewrite EA at 1; apply prod_list_app).
    assert (LB : prod_list (dsh B) = prod_list kk * prod_list f2) by (rewrite EB at 1; apply prod_list_app).
    assert (Lo : prod_list (s_sh out) = prod_list f1 * prod_list f2) by (rewrite Eo, DP; apply prod_list_app).
    set (a := mat (length f1) A). set (b := mat (length kk) B).
    assert (Ta : dsh a = [prod_list f1; prod_list kk]) by (apply mat_dsh; exact EA). assert (Tb : dsh b = [prod_list kk; prod_list f2]) by (apply mat_dsh; exact EB).
    assert (Em : exists r, t_mm a b = Ok r /\ dsh r = [prod_list f1; prod_list f2] /\ forall x y, dv r [x; y] = sumf R (fun c => rmul (dv a [x; c]) (dv b [c; y])) (seq 0 (prod_list kk))).
    { unfold t_mm. rewrite Ta, Tb, Nat.eqb_refl. eexists. split; [reflexivity|]. split; reflexivity. }
    destruct Em as (r & Em & Dr & Vr). destruct (@addmm_of R (load m out) r a b (prod_list f1) (prod_list f2) beta alpha Em Dr Lo) as (c & q & E1 & E2 & Dq & Vq).
    exists q. split; [|split; [exact Lo|]].
    - unfold tensorgdot_count. cbv zeta. replace (n1 + n2 <? 2 * k) with false by (symmetry; apply Nat.ltb_ge; lia).
      replace (n1 <? k) with false by (symmetry; apply Nat.ltb_ge; lia). replace (n2 <? k) with false by (symmetry; apply Nat.ltb_ge; lia). cbn [orb].
      rewrite Eo, DP, leqb_refl. cbn [negb]. rewrite <- E, leqb_refl. cbn [negb].
      assert (Ra : t_reshape [prod_list f1; prod_list kk] A = Ok a).
      { unfold t_reshape. rewrite LA. replace (prod_list [prod_list f1; prod_list kk]) with (prod_list f1 * prod_list kk) by (cbn; lia). rewrite Nat.eqb_refl. unfold a, mat.
        rewrite (firstn_length_le (dsh A)) by lia. reflexivity. }
      assert (Rb : t_reshape [prod_list kk; prod_list f2] B = Ok b).
      { unfold t_reshape. rewrite LB. replace (prod_list [prod_list kk; prod_list f2]) with (prod_list kk * prod_list f2) by (cbn; lia). rewrite Nat.eqb_refl. unfold b, mat.
        replace (length kk) with k by (rewrite skipn_length; lia). rewrite <- E. reflexivity. }
      rewrite Ra. cbn [rbind]. rewrite Rb. cbn [rbind]. rewrite E1. cbn [rbind]. rewrite E2. reflexivity.
    - intros i x y Hi Hy Ei. rewrite (Vq i x y Hi Hy Ei). do 2 f_equal. rewrite Vr.
      assert (Hi' : in_range (f1 ++ f2) i = true) by (rewrite <- DP, <- Eo; exact Hi). apply ChainInst.in_range_app in Hi'. destruct Hi' as [Hi1 Hi2].
      rewrite Eo, DP in Ei. set (o1 := firstn (length f1) i) in *. set (o2 := skipn (length f1) i) in *.
      assert (Li : i = o1 ++ o2) by (symmetry; apply firstn_skipn). rewrite Li, rowmajor_app in Ei by (apply in_range_length; auto).
      pose proof (rowmajor_lt _ _ Hi2) as B2. assert (Ex : x = rowmajor f1 o1) by nia. assert (Ey : y = rowmajor f2 o2) by nia. subst x y.
      rewrite Li, VP by auto. rewrite <- sum_ranks. apply sumf_ext. intros z Hz. apply idxs_In in Hz. unfold a, b.
      rewrite (mat_dv _ _ _ _ _ EA Hi1 Hz), (mat_dv _ _ _ _ _ EB Hz Hi2). reflexivity.
  Qed.
End Count.

Section CountMain.
  Variable R : ring.
  Notation mem := (nat -> R).
  Implicit Types A B C P D : dense R.

  Lemma count_holds (m : mem) out A B k beta alpha P : k <= length (dsh A) -> k <= length (dsh B) ->
    skipn (length (dsh A) - k) (dsh A) = firstn k (dsh B) -> t_tdot A B (seq (length (dsh A) - k) k) (seq 0 k) = Ok P -> s_sh out = dsh P -> separate out ->
    matrix_like out (prod_list (firstn (length (dsh A) - k) (dsh A))) (prod_list (skipn k (dsh B))) ->
    exists m', tensorgdot_count m out A B k beta alpha = Ok m' /\ holds m m' out beta alpha (load m out) P.
  Proof.
    intros K1 K2 E HP Eo S M. destruct (@count_value R A B k K1 K2 m out beta alpha P E HP Eo) as (q & Eq & Lo & Vq). eexists. split; [exact Eq|].
    destruct (write_ok m q S Lo M) as [W1 W2]. split; [|exact W2]. split; [reflexivity|]. cbn [load dsh]. intros i Hi.
    pose proof (rowmajor_lt _ _ Hi) as B0. rewrite Lo in B0. destruct (pos2 _ _ B0) as (Hx & Hy & Ei).
    change (dv (load (write_reshaped m out (prod_list (firstn (length (dsh A) - k) (dsh A))) (prod_list (skipn k (dsh B))) q) out) i = radd (rmul beta (dv (load m out) i)) (rmul alpha (dv P i))).
    rewrite (W1 i _ _ Hi Hx Hy Ei). apply Vq; auto.
  Qed.
  Lemma count_lost (m : mem) out A B k beta alpha P : k <= length (dsh A) -> k <= length (dsh B) ->
    skipn (length (dsh A) - k) (dsh A) = firstn k (dsh B) -> t_tdot A B (seq (length (dsh A) - k) k) (seq 0 k) = Ok P -> s_sh out = dsh P ->
    ~ matrix_like out (prod_list (firstn (length (dsh A) - k) (dsh A))) (prod_list (skipn k (dsh B))) ->
    tensorgdot_count m out A B k beta alpha = Ok m.
  Proof.
    intros K1 K2 E HP Eo M. destruct (@count_value R A B k K1 K2 m out beta alpha P E HP Eo) as (q & Eq & _). rewrite Eq, write_lost by exact M. reflexivity.
  Qed.
  (** No broadcasting: different sizes are rejected, and so is an output of another shape. *)
  Lemma count_rejects (m : mem) out A B k beta alpha : k <= length (dsh A) -> k <= length (dsh B) ->
    skipn (length (dsh A) - k) (dsh A) <> firstn k (dsh B) \/ s_sh out <> firstn (length (dsh A) - k) (dsh A) ++ skipn k (dsh B) ->
    tensorgdot_count m out A B k beta alpha = Throw TorchError.
  Proof.
    intros K1 K2 H. unfold tensorgdot_count. cbv zeta. replace (_ <? 2 * k) with false by (symmetry; apply Nat.ltb_ge; lia).
    replace (length (dsh A) <? k) with false by (symmetry; apply Nat.ltb_ge; lia). replace (length (dsh B) <? k) with false by (symmetry; apply Nat.ltb_ge; lia). cbn [orb].
    destruct (leqb (_ ++ _) (s_sh out)) eqn:E1; [|reflexivity]. apply leqb_eq in E1. cbn [negb].
    destruct (leqb (skipn _ _) (firstn _ _)) eqn:E2; [|reflexivity]. apply leqb_eq in E2. destruct H as [H|H]; congruence.
  Qed.
  (** More dimensions than one of the tensors has. *)
  Lemma count_overrun (m : mem) out A B k beta alpha : length (dsh A) < k \/ length (dsh B) < k -> 2 * k <= length (dsh A) + length (dsh B) ->
    tensorgdot_count m out A B k beta alpha = UB.
  Proof.
    intros H L. unfold tensorgdot_count. cbv zeta. replace (_ <? 2 * k) with false by (symmetry; apply Nat.ltb_ge; lia).
    destruct H as [H|H]; apply Nat.ltb_lt in H; rewrite H; [reflexivity|]. rewrite orb_true_r. reflexivity.
  Qed.
End CountMain.
