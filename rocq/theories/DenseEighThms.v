(** Decompositions of dense tensors of any rank. *)
From Verif Require Import Base Ring Index SpecIndex Dense IndexProofs BTensor BTensorArith Bcast Tensordot SpecTensordot Chain SpecChain ChainProofs ChainThms ChainInst ChainEnd ModelsBlockProofs
  SpecMove SpecSvd SvdDense MoveOc MoveProofs MoveInst Truncate SpecTruncate TruncateProofs BSvd BTrunc Num SpecEigh SiteUpdate ChainNorm SiteUpdateProofs DenseEigh SpecDenseEigh.
Set Implicit Arguments.

Section U.
  Variable N : numeric.
  Add Ring Rr : (ring_th N).
  Notation t := (dense N).

  Lemma rowmajor_surj l n : n < prod_list l -> exists x, in_range l x = true /\ rowmajor l x = n.
  Proof. intros H. exists (unrank l n). split; [apply unrank_in_range, H|apply rowmajor_unrank, H]. Qed.
  Lemma cut_any (A : t) l1 l2 : dsh A = l1 ++ l2 -> firstn (length l1) (dsh A) = l1 /\ skipn (length l1) (dsh A) = l2.
  Proof. intros ->. rewrite firstn_app, skipn_app, Nat.sub_diag, firstn_all, skipn_all. cbn. rewrite app_nil_r. auto. Qed.
  Lemma cut_reshape (A : t) l1 l2 : dsh A = l1 ++ l2 ->
    t_reshape [prod_list l1; prod_list l2] A = Ok (d_reshape [prod_list l1; prod_list l2] A) /\ cut_matrix (length l1) A (d_reshape [prod_list l1; prod_list l2] A).
  Proof.
    intros EA. destruct (@cut_any A l1 l2 EA) as (F1 & F2).
    assert (PM : prod_list [prod_list l1; prod_list l2] = prod_list (dsh A)) by (rewrite EA, prod_list_app; cbn; lia).
    split; [unfold t_reshape; rewrite PM, Nat.eqb_refl; reflexivity|].
    unfold cut_matrix. rewrite F1, F2. split; [reflexivity|]. intros i j Hi Hj. pose proof (in_range_length _ _ Hi) as Li. apply reshape_dv; [exact PM| |].
    - rewrite EA, IndexProofs.in_range_app, Hi, Hj by exact Li. reflexivity.
    - rewrite EA, rowmajor_app by exact Li. cbn. lia.
  Qed.
  Lemma back_reshape (w : t) l k : dsh w = [prod_list l; k] -> t_reshape (l ++ [k]) w = Ok (d_reshape (l ++ [k]) w) /\
    (forall i c, in_range l i = true -> c < k -> dv (d_reshape (l ++ [k]) w) (i ++ [c]) = dv w [rowmajor l i; c]) /\
    (orthonormal (prod_list l) k w -> tensor_orthonormal l k (d_reshape (l ++ [k]) w)).
  Proof.
    intros Sw. assert (Pw : prod_list (l ++ [k]) = prod_list (dsh w)) by (rewrite Sw, prod_list_app; cbn; lia).
    assert (VU : forall i c, in_range l i = true -> c < k -> dv (d_reshape (l ++ [k]) w) (i ++ [c]) = dv w [rowmajor l i; c]).
    { intros i c Hi Hc. apply reshape_dv; [exact Pw|rewrite Sw; apply pair_in; [apply rowmajor_lt; exact Hi|exact Hc]|]. rewrite Sw, rowmajor_app by (apply in_range_length; exact Hi). cbn. lia. }
    split; [unfold t_reshape; rewrite Pw, Nat.eqb_refl; reflexivity|]. split; [exact VU|].
    intros HO c c' Hc Hc'. rewrite <- (HO c c' Hc Hc'), <- sum_ranks. apply sumf_ext. intros i Hi. apply idxs_In in Hi. rewrite !VU by assumption. reflexivity.
  Qed.

  (** * Singular values *)
  Theorem svd_any (dsvd : t -> t * t * t) (A : t) l1 l2 : dsh A = l1 ++ l2 -> (forall M, cut_matrix (length l1) A M -> thin M (dsvd M) /\ real_entries (snd (fst (dsvd M)))) ->
    exists M U d V, cut_matrix (length l1) A M /\ d_svd dsvd A (length l1) = Ok (U, d, V) /\ d = snd (fst (dsvd M)) /\
    tensor_factors l1 l2 (Nat.min (prod_list l1) (prod_list l2)) A U d V /\ real_entries d /\
    (isometries M (dsvd M) -> tensor_orthonormal l1 (Nat.min (prod_list l1) (prod_list l2)) U /\ tensor_orthonormal l2 (Nat.min (prod_list l1) (prod_list l2)) V).
  Proof.
    intros EA HT0. destruct (@cut_any A l1 l2 EA) as (F1 & F2). destruct (@cut_reshape A l1 l2 EA) as (ER & CM).
    unfold d_svd. replace (length (dsh A) <? length l1) with false by (symmetry; apply Nat.ltb_ge; rewrite EA, app_length; lia).
    rewrite F1, F2, ER. cbn [rbind]. set (M := d_reshape [prod_list l1; prod_list l2] A) in *. destruct (HT0 M CM) as (HT & HRE). exists M.
    set (k := Nat.min (prod_list l1) (prod_list l2)).
    destruct (dsvd M) as ((u, d), v) eqn:ED. cbn [fst snd] in HRE. destruct (HT (prod_list l1) (prod_list l2) eq_refl) as (Su & Sd & Sv & HF). fold k in Su, Sd, Sv, HF.
    destruct (@back_reshape u l1 k Su) as (E1 & V1 & O1). destruct (@back_reshape v l2 k Sv) as (E2 & V2 & O2).
    rewrite Sd, E1, E2. cbn [rbind]. exists (d_reshape (l1 ++ [k]) u), d, (d_reshape (l2 ++ [k]) v).
    split; [exact CM|]. split; [reflexivity|]. split; [reflexivity|]. split; [|split; [exact HRE|]].
    - split; [reflexivity|]. split; [exact Sd|]. split; [reflexivity|]. intros i j Hi Hj.
      destruct CM as (_ & VM). rewrite F1, F2 in VM. rewrite <- VM, HF by (assumption || (apply rowmajor_lt; assumption)). apply sumf_ext. intros c Hc. apply in_seq in Hc. rewrite V1, V2 by (assumption || lia). reflexivity.
    - intros H. destruct (H (prod_list l1) (prod_list l2) eq_refl) as (Q1 & Q2). split; [apply O1, Q1|apply O2, Q2].
  Qed.

  (** * Eigenvalues *)
  Variable deigh : t -> t * t.
  Lemma eigh_rejects (A : t) split :
    (length (dsh A) < split -> d_eigh deigh A split = Throw TorchError) /\
    (split <= length (dsh A) -> prod_list (firstn split (dsh A)) <> prod_list (skipn split (dsh A)) -> d_eigh deigh A split = Throw InvalidArgument).
  Proof.
    unfold d_eigh. split.
    - intros H. apply Nat.ltb_lt in H. rewrite H. reflexivity.
    - intros H Q. apply Nat.ltb_ge in H. rewrite H. apply Nat.eqb_neq in Q. rewrite Q. reflexivity.
  Qed.
  Lemma eigh_matrix (A : t) l1 l2 : dsh A = l1 ++ l2 -> prod_list l1 = prod_list l2 ->
    exists M, cut_matrix (length l1) A M /\ (dsh (fst (deigh M)) = [prod_list l1] -> dsh (snd (deigh M)) = [prod_list l1; prod_list l1] ->
      exists U, d_eigh deigh A (length l1) = Ok (fst (deigh M), U) /\ dsh U = l1 ++ [prod_list l1] /\
      (forall i c, in_range l1 i = true -> c < prod_list l1 -> dv U (i ++ [c]) = dv (snd (deigh M)) [rowmajor l1 i; c]) /\
      (orthonormal (prod_list l1) (prod_list l1) (snd (deigh M)) -> tensor_orthonormal l1 (prod_list l1) U)).
  Proof.
    intros EA EP. destruct (@cut_any A l1 l2 EA) as (F1 & F2). destruct (@cut_reshape A l1 l2 EA) as (ER & CM).
    exists (d_reshape [prod_list l1; prod_list l2] A). split; [exact CM|]. set (M := d_reshape [prod_list l1; prod_list l2] A) in *. intros Sd Su.
    unfold d_eigh. replace (length (dsh A) <? length l1) with false by (symmetry; apply Nat.ltb_ge; rewrite EA, app_length; lia).
    rewrite F1, F2. replace (prod_list l1 =? prod_list l2) with true by (symmetry; apply Nat.eqb_eq, EP). cbn [negb]. rewrite ER. cbn [rbind].
    destruct (deigh M) as (d, u). cbn [fst snd] in *. destruct (@back_reshape u l1 _ Su) as (E1 & V1 & O1). rewrite Sd, E1. cbn [rbind].
    eexists. split; [reflexivity|]. split; [reflexivity|]. split; [exact V1|exact O1].
  Qed.

  Lemma hermitian_cut (H M : t) l : dsh H = l ++ l -> hermitian l H -> cut_matrix (length l) H M -> hermitian_matrix M.
  Proof.
    intros EH HH (SM & VM). destruct (@cut_any H l l EH) as (F1 & F2). rewrite F1, F2 in SM, VM. exists (prod_list l). split; [exact SM|]. intros i j Hi Hj.
    destruct (rowmajor_surj l Hi) as (x & Hx & <-). destruct (rowmajor_surj l Hj) as (z & Hz & <-). rewrite !VM by assumption. apply HH; assumption.
  Qed.
  Lemma eigen_cols (H U d : t) l n : tensor_factors l l n H U d U -> tensor_orthonormal l n U -> forall c, c < n -> eigenvector l H U d c.
  Proof.
    intros (SU & Sd & _ & HF) HO c Hc i Hi.
    transitivity (sum c' < n, rmul (rmul (dv U (i ++ [c'])) (dv d [c'])) (sumf N (fun j => rmul (rconj (dv U (j ++ [c']))) (dv U (j ++ [c]))) (idxs l))).
    - transitivity (sumf N (fun j => sum c' < n, rmul (rmul (rmul (dv U (i ++ [c'])) (dv d [c'])) (rconj (dv U (j ++ [c'])))) (dv U (j ++ [c]))) (idxs l)).
      + apply sumf_ext. intros j Hj. apply idxs_In in Hj. rewrite HF by assumption. rewrite <- sumf_mul_r. reflexivity.
      + rewrite sumf_swap. apply sumf_ext. intros c' _. rewrite <- sumf_mul_l. apply sumf_ext. intros j _. ring.
    - rewrite <- (@sum_pick N n (fun c' => rmul (dv d [c']) (dv U (i ++ [c']))) c) by exact Hc. apply sumf_ext. intros c' Hc'. apply in_seq in Hc'. rewrite HO by lia.
      rewrite (Nat.eqb_sym c c'). destruct (c' =? c); ring.
  Qed.
  Theorem eigh_any (A H : t) l : (forall M, cut_matrix (length l) A M -> eigh_lower deigh M) -> dsh A = l ++ l -> dsh H = l ++ l -> hermitian l H -> lower_half l A H ->
    exists d U, d_eigh deigh A (length l) = Ok (d, U) /\ tensor_factors l l (prod_list l) H U d U /\ tensor_orthonormal l (prod_list l) U /\ real_entries d /\
      forall c, c < prod_list l -> eigenvector l H U d c.
  Proof.
    intros H_eigh EA EH HH HL. destruct (@eigh_matrix A l l EA eq_refl) as (M & CM & K). destruct (@cut_reshape H l l EH) as (_ & CH).
    set (MH := d_reshape [prod_list l; prod_list l] H) in *. pose proof (@hermitian_cut H MH l EH HH CH) as HM.
    destruct (@cut_any A l l EA) as (F1 & F2). destruct (@cut_any H l l EH) as (G1 & G2).
    pose proof (H_eigh M CM) as HEM. destruct CM as (SM & VM). rewrite F1, F2 in SM, VM. destruct CH as (SH & VH). rewrite G1, G2 in SH, VH.
    assert (EP : eigenpairs MH (deigh M)).
    { apply HEM with (n := prod_list l); [exact SM|exact SH|exact HM|]. intros i j Hi Hj Q.
      destruct i as [|a [|]]; try (cbn in Hi; rewrite ?andb_false_r in Hi; discriminate Hi). destruct j as [|b [|]]; try (cbn in Hj; rewrite ?andb_false_r in Hj; discriminate Hj). cbn in Hi, Hj. rewrite !andb_true_r in Hi, Hj. apply Nat.ltb_lt in Hi, Hj. cbn in Q. cbn [app].
      destruct (rowmajor_surj l Hi) as (x & Hx & <-). destruct (rowmajor_surj l Hj) as (z & Hz & <-). rewrite VM, VH by assumption. apply HL; [assumption|assumption|]. lia. }
    destruct (deigh M) as (d, u) eqn:ED. destruct (EP _ SH) as ((Su & Sd & _ & HF) & HO & HR). cbn [fst snd] in K. destruct (K Sd Su) as (U & E & SU & VU & OU). rewrite E.
    assert (TF : tensor_factors l l (prod_list l) H U d U).
    { split; [exact SU|]. split; [exact Sd|]. split; [exact SU|]. intros i j Hi Hj. rewrite <- VH, HF by (assumption || (apply rowmajor_lt; assumption)). apply sumf_ext. intros c Hc. apply in_seq in Hc. rewrite !VU by (assumption || lia). reflexivity. }
    exists d, U. split; [reflexivity|]. split; [exact TF|]. split; [exact (OU HO)|]. split; [exact HR|]. intros c Hc. exact (eigen_cols TF (OU HO) Hc).
  Qed.
End U.

(** * Truncation *)
Section T.
  Context {N : numeric} {W : weights}.
  Notation t := (dense N).
  Variable wt : N -> W.
  Variable thr : W.
  Lemma skipn_seq k n : skipn k (seq 0 n) = seq k (n - k).
  Proof.
    assert (E : forall a, skipn k (seq a n) = seq (a + k) (n - k)).
    { revert n. induction k as [|k IH]; intros n a; [rewrite Nat.add_0_r, Nat.sub_0_r; reflexivity|]. destruct n as [|n]; [reflexivity|]. cbn [seq skipn Nat.sub]. rewrite IH. f_equal. lia. }
    apply (E 0).
  Qed.
  Lemma rows_exceed (U : t) l n k : dsh U = l ++ [n] -> exceeds (lost_after wt k) (rows U) thr <-> some_row_loses wt l n k U thr.
  Proof.
    intros SU. unfold exceeds, rows, some_row_loses, lost_after, row_weight. rewrite SU, last_last, removelast_last. split.
    - intros (row & Hr & HG). apply in_map_iff in Hr as (i & <- & Hi). apply idxs_In in Hi. exists i. split; [exact Hi|]. rewrite skipn_map, skipn_seq in HG. exact HG.
    - intros (i & Hi & HG). eexists. split; [apply in_map_iff; exists i; split; [reflexivity|apply idxs_In, Hi]|]. rewrite skipn_map, skipn_seq. exact HG.
  Qed.
  Theorem trunc2_ok (d U : t) l n mn mx : dsh U = l ++ [n] -> dsh d = [n] -> 1 <= n -> (Z.of_nat n <= 2 ^ 63)%Z -> (1 <= mn <= mx)%Z ->
    exists k, d_truncate_pair wt thr (d, U) mn mx = Some (Ok (mkD [k] (dv d), mkD (l ++ [k]) (dv U))) /\ 1 <= k <= n /\
      (Z.min mn (Z.of_nat n) <= Z.of_nat k <= mx)%Z /\ (k < n -> some_row_loses wt l n k U thr -> Z.of_nat k = mx) /\
      (forall j, j < k -> (mn <= Z.of_nat j)%Z -> some_row_loses wt l n j U thr).
  Proof.
    intros SU Sd H1 H2 Hm. unfold d_truncate_pair, d_truncate2. rewrite SU, last_last.
    destruct (@last_index_spec W N wt n (rows U) thr mn mx) as (k & E & B & Lk & X1 & X2); try assumption.
    { intros row Hr. unfold rows in Hr. apply in_map_iff in Hr as (i & <- & _). rewrite map_length, seq_length, SU. apply last_last. }
    rewrite E. cbn [obind]. exists k. assert (J : 1 <= k) by lia.
    split; [|split; [lia|split; [exact B|split]]].
    - replace (Z.of_nat k - 1 + 1)%Z with (Z.of_nat k) by lia. unfold d_slice. replace (Z.of_nat k <? 0)%Z with false by (symmetry; apply Z.ltb_ge; lia). rewrite Nat2Z.id.
      unfold first_n. rewrite SU, Sd, !removelast_last, !last_last. cbn [removelast last app]. rewrite Nat.min_l by exact Lk. reflexivity.
    - intros Hk HG. apply X1; [exact Hk|]. apply (proj2 (@rows_exceed U l n k SU)), HG.
    - intros j Hj HM. apply (proj1 (@rows_exceed U l n j SU)), X2; assumption.
  Qed.

  Theorem svd_trunc_any (dsvd : t -> t * t * t) (A : t) l1 l2 mn mx : dsh A = l1 ++ l2 -> (forall M, cut_matrix (length l1) A M -> thin M (dsvd M) /\ real_entries (snd (fst (dsvd M))) /\ isometries M (dsvd M)) ->
    1 <= Nat.min (prod_list l1) (prod_list l2) -> (Z.of_nat (Nat.min (prod_list l1) (prod_list l2)) <= 2 ^ 63)%Z -> (1 <= mn <= mx)%Z ->
    exists M U d V k, cut_matrix (length l1) A M /\ d = snd (fst (dsvd M)) /\ d_svd_trunc dsvd wt thr mn mx A (length l1) = Some (Ok (mkD (l1 ++ [k]) (dv U), mkD [k] (dv d), mkD (l2 ++ [k]) (dv V))) /\
      tensor_factors l1 l2 (Nat.min (prod_list l1) (prod_list l2)) A U d V /\
      tensor_orthonormal l1 k (mkD (l1 ++ [k]) (dv U)) /\ tensor_orthonormal l2 k (mkD (l2 ++ [k]) (dv V)) /\
      1 <= k <= Nat.min (prod_list l1) (prod_list l2) /\ (Z.min mn (Z.of_nat (Nat.min (prod_list l1) (prod_list l2))) <= Z.of_nat k <= mx)%Z /\
      (k < Nat.min (prod_list l1) (prod_list l2) -> wgtb (row_weight wt (Nat.min (prod_list l1) (prod_list l2)) k d []) thr = true -> Z.of_nat k = mx) /\
      (forall j, j < k -> (mn <= Z.of_nat j)%Z -> wgtb (row_weight wt (Nat.min (prod_list l1) (prod_list l2)) j d []) thr = true).
  Proof.
    intros EA HT H1 H2 Hm. destruct (@svd_any N dsvd A l1 l2 EA) as (M & U & d & V & CM & ES & Ed & TF & RE & ISO); [intros M CM; destruct (HT M CM) as (Q1 & Q2 & _); auto|].
    set (n := Nat.min (prod_list l1) (prod_list l2)) in *. destruct (ISO (proj2 (proj2 (HT M CM)))) as (OU & OV). pose proof TF as (SU & Sd & SV & _).
    destruct (@trunc_ok N W wt thr mn mx Hm U d V l1 l2 n SU Sd SV H1 H2) as (k & ET & B1 & B2 & X1 & X2).
    assert (RW : forall j, lost_after wt j (values d) = row_weight wt n j d []) by (intros j; unfold lost_after, values, row_weight; rewrite Sd; cbn [nth app]; rewrite skipn_map, skipn_seq; reflexivity).
    exists M, U, d, V, k. split; [exact CM|]. split; [exact Ed|]. split; [unfold d_svd_trunc; rewrite ES; cbn [obind]; exact ET|]. split; [exact TF|].
    split; [intros c c' Hc Hc'; apply OU; lia|]. split; [intros c c' Hc Hc'; apply OV; lia|]. split; [exact B1|]. split; [exact B2|].
    split; [intros Hk; rewrite <- RW; apply X1, Hk|intros j Hj; rewrite <- RW; apply X2, Hj].
  Qed.

  Variable deigh : t -> t * t.
  Theorem eigh_trunc_any (A H : t) l mn mx : (forall M, cut_matrix (length l) A M -> eigh_lower deigh M) -> dsh A = l ++ l -> dsh H = l ++ l -> hermitian l H -> lower_half l A H ->
    1 <= prod_list l -> (Z.of_nat (prod_list l) <= 2 ^ 63)%Z -> (1 <= mn <= mx)%Z ->
    exists d U k, d_eigh deigh A (length l) = Ok (d, U) /\ d_eigh_trunc deigh wt thr A (length l) mn mx = Some (Ok (mkD [k] (dv d), mkD (l ++ [k]) (dv U))) /\
      tensor_orthonormal l k (mkD (l ++ [k]) (dv U)) /\ (forall c, c < k -> eigenvector l H (mkD (l ++ [k]) (dv U)) (mkD [k] (dv d)) c) /\
      1 <= k <= prod_list l /\ (Z.min mn (Z.of_nat (prod_list l)) <= Z.of_nat k <= mx)%Z /\
      (k < prod_list l -> some_row_loses wt l (prod_list l) k U thr -> Z.of_nat k = mx) /\
      (forall j, j < k -> (mn <= Z.of_nat j)%Z -> some_row_loses wt l (prod_list l) j U thr).
  Proof.
    intros HE EA EH HH HL H1 H2 Hm. destruct (@eigh_any N deigh A H l HE EA EH HH HL) as (d & U & E & TF & HO & HR & HV).
    destruct TF as (SU & Sd & _). destruct (@trunc2_ok d U l _ mn mx SU Sd H1 H2 Hm) as (k & ET & B1 & B2 & X1 & X2).
    exists d, U, k. split; [exact E|]. unfold d_eigh_trunc. rewrite E. cbn [obind]. split; [exact ET|].
    split; [intros c c' Hc Hc'; apply HO; lia|]. split; [intros c Hc; apply HV; lia|]. auto.
  Qed.
End T.
