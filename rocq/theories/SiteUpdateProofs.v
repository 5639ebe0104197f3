(** The update of two sites of a chain: decomposition, truncation and normalization. *)
From Verif Require Import Base Ring Index SpecIndex Dense IndexProofs BTensor BTensorArith Bcast Tensordot SpecTensordot Chain SpecChain ChainProofs ChainThms ChainInst ChainEnd ModelsBlockProofs
  SpecMove SpecSvd SvdDense MoveOc MoveProofs MoveInst Truncate SpecTruncate TruncateProofs BSvd BTrunc Num Lanczos SpecLanczos LanczosVec LanczosProofs SiteUpdate SpecSiteUpdate ChainNorm ChainEnergy.
Set Implicit Arguments.

Section U.
  Variable N : numeric.
  Add Ring Rr : (ring_th N).
  Notation t := (dense N).
  Notation nn x := (n_leb N rz x = true).
  Tactic Notation "pulln" integer(n) := eapply eq_trans; [do n (apply pull; intro); reflexivity|cbn beta].
  Ltac inn := apply sumf_ext; intros ? _.
  Ltac small := cbn; intros; repeat match goal with H : _ \/ _ |- _ => destruct H end; try contradiction; subst; lia.
  Ltac dist := repeat (constructor; [cbn; intuition congruence|]); constructor.

  Variables y p p' y' : nat.
  Notation sh := [y; p; p'; y'].
  (** * Sums of products of orthonormal vectors *)
  Definition schmidt (k : nat) (U : t) (d : nat -> N) (V : t) (i : list nat) : N :=
    sum c < k, rmul (rmul (dv U [nth 0 i 0; nth 1 i 0; c]) (d c)) (rconj (dv V [nth 2 i 0; nth 3 i 0; c])).
  Lemma schmidt_norm k U d V : tensor_orthonormal [y; p] k U -> tensor_orthonormal [p'; y'] k V -> (forall c, c < k -> rconj (d c) = d c) ->
    sprod sh (schmidt k U d V) (schmidt k U d V) = sum c < k, rmul (d c) (d c).
  Proof.
    intros HU HV HD. unfold sprod, schmidt.
    transitivity (sum c < k, sum c' < k, rmul (rmul (rconj (d c)) (d c')) (rmul (sum i < y, sum j < p, rmul (rconj (dv U [i; j; c])) (dv U [i; j; c'])) (sum i < p', sum j < y', rmul (rconj (dv V [i; j; c'])) (dv V [i; j; c])))).
    - transitivity (sum i0 < y, sum i1 < p, sum i2 < p', sum i3 < y', sum c < k, sum c' < k, rmul (rmul (rconj (d c)) (d c')) (rmul (rmul (rconj (dv U [i0; i1; c])) (dv U [i0; i1; c'])) (rmul (rconj (dv V [i2; i3; c'])) (dv V [i2; i3; c])))).
      + rewrite sum_idxs_cons. inn. rewrite sum_idxs_cons. inn. rewrite sum_idxs_cons. inn. rewrite sum_idxs1. inn. cbn [nth]. rewrite prod_sum. inn. inn. rewrite !rconj_mul, rconj_conj. ring.
      + pulln 4. inn. pulln 4. inn. rewrite <- sumf_mul_r, <- sumf_mul_l. inn. rewrite <- sumf_mul_r, <- sumf_mul_l. inn. rewrite <- !sumf_mul_l. inn. rewrite <- !sumf_mul_l. inn. reflexivity.
    - apply sumf_ext. intros c Hc. apply in_seq in Hc. rewrite <- (@sum_pick N k (fun c' => rmul (d c) (d c')) c) by lia. apply sumf_ext. intros c' Hc'. apply in_seq in Hc'.
      assert (QU : (sum i < y, sum j < p, rmul (rconj (dv U [i; j; c])) (dv U [i; j; c'])) = if c =? c' then ro else rz) by (rewrite <- (HU c c') by lia; rewrite sum_idxs_cons; inn; rewrite sum_idxs1; reflexivity).
      assert (QV : (sum i < p', sum j < y', rmul (rconj (dv V [i; j; c'])) (dv V [i; j; c])) = if c' =? c then ro else rz) by (rewrite <- (HV c' c) by lia; rewrite sum_idxs_cons; inn; rewrite sum_idxs1; reflexivity).
      rewrite QU, QV, HD by lia. destruct (Nat.eqb_spec c c') as [->|D]; [rewrite Nat.eqb_refl; ring|]. ring.
  Qed.
  Lemma ortho_less s k k' (U : t) : k <= k' -> tensor_orthonormal s k' U -> tensor_orthonormal s k U.
  Proof. intros L H c c' Hc Hc'. apply H; lia. Qed.
  Lemma ortho_ext s k (U U' : t) : (forall i c, in_range s i = true -> c < k -> dv U' (i ++ [c]) = dv U (i ++ [c])) -> tensor_orthonormal s k U -> tensor_orthonormal s k U'.
  Proof. intros E H c c' Hc Hc'. rewrite <- (H c c' Hc Hc'). apply sumf_ext. intros i Hi. apply idxs_In in Hi. rewrite !E by assumption. reflexivity. Qed.

  (** * The decomposition *)
  Section Svd.
  Variable dsvd : t -> t * t * t.
  Hypothesis H_thin : forall M, (exists m n, dsh M = [m; n]) -> thin M (dsvd M) /\ real_entries (snd (fst (dsvd M))).
  Notation K := (Nat.min (y * p) (p' * y')).
  Lemma svd4 (A : t) : dsh A = sh -> exists M U d V, cut_matrix 2 A M /\ d_svd dsvd A 2 = Ok (U, d, V) /\ d = snd (fst (dsvd M)) /\
    tensor_factors [y; p] [p'; y'] K A U d V /\ real_entries d /\ (isometries M (dsvd M) -> tensor_orthonormal [y; p] K U /\ tensor_orthonormal [p'; y'] K V).
  Proof.
    intros EA. set (l1 := [y; p]). set (l2 := [p'; y']). assert (EA' : dsh A = l1 ++ l2) by exact EA.
    assert (F1 : firstn 2 (dsh A) = l1) by (rewrite EA; reflexivity). assert (F2 : skipn 2 (dsh A) = l2) by (rewrite EA; reflexivity).
    set (m := prod_list l1). set (n := prod_list l2). set (M := d_reshape [m; n] A). set (k := Nat.min m n).
    assert (Ek : K = k) by (unfold k, m, n, l1, l2; cbn; lia). rewrite Ek.
    assert (PM : prod_list [m; n] = prod_list (dsh A)) by (rewrite EA', prod_list_app; cbn; unfold m, n; lia).
    assert (VM : forall i j, in_range l1 i = true -> in_range l2 j = true -> dv M [rowmajor l1 i; rowmajor l2 j] = dv A (i ++ j)).
    { intros i j Hi Hj. pose proof (in_range_length _ _ Hi) as Li. apply reshape_dv; [exact PM| |].
      - rewrite EA', IndexProofs.in_range_app, Hi, Hj by exact Li. reflexivity.
      - rewrite EA', rowmajor_app by exact Li. cbn. unfold n. lia. }
    assert (CM : cut_matrix 2 A M) by (unfold cut_matrix; rewrite F1, F2; split; [reflexivity|exact VM]).
    destruct (H_thin M) as (HT & HRE); [exists m, n; reflexivity|]. exists M.
    unfold d_svd. replace (length (dsh A) <? 2) with false by (rewrite EA; reflexivity). rewrite F1, F2. fold m n. unfold t_reshape at 1. rewrite PM, Nat.eqb_refl. cbn [rbind]. fold M.
    destruct (dsvd M) as ((u, d), v) eqn:ED. cbn [fst snd] in HRE. destruct (HT m n eq_refl) as (Su & Sd & Sv & HF). fold k in Su, Sd, Sv, HF.
    assert (P1 : prod_list (l1 ++ [k]) = prod_list (dsh u)) by (rewrite Su, prod_list_app; cbn; unfold m; lia). assert (P2 : prod_list (l2 ++ [k]) = prod_list (dsh v)) by (rewrite Sv, prod_list_app; cbn; unfold n; lia).
    rewrite Sd. unfold t_reshape. rewrite P1, P2, !Nat.eqb_refl. cbn [rbind].
    assert (VU : forall l (w : dense N) i c, dsh w = [prod_list l; k] -> prod_list (l ++ [k]) = prod_list (dsh w) -> in_range l i = true -> c < k -> dv (d_reshape (l ++ [k]) w) (i ++ [c]) = dv w [rowmajor l i; c]).
    { intros l w i c Sw Pw Hi Hc. apply reshape_dv; [exact Pw|rewrite Sw; apply pair_in; [apply rowmajor_lt; exact Hi|exact Hc]|]. rewrite Sw, rowmajor_app by (apply in_range_length; exact Hi). cbn. lia. }
    assert (TO : forall l (w : dense N), dsh w = [prod_list l; k] -> prod_list (l ++ [k]) = prod_list (dsh w) -> orthonormal (prod_list l) k w -> tensor_orthonormal l k (d_reshape (l ++ [k]) w)).
    { intros l w Sw Pw HO c c' Hc Hc'. rewrite <- (HO c c' Hc Hc'), <- sum_ranks. apply sumf_ext. intros i Hi. apply idxs_In in Hi. rewrite !VU by assumption. reflexivity. }
    exists (d_reshape (l1 ++ [k]) u), d, (d_reshape (l2 ++ [k]) v).
    split; [exact CM|]. split; [reflexivity|]. split; [reflexivity|]. split; [|split; [exact HRE|]].
    - split; [reflexivity|]. split; [exact Sd|]. split; [reflexivity|]. intros i j Hi Hj.
      rewrite <- VM, HF by (assumption || (apply rowmajor_lt; assumption)). apply sumf_ext. intros c Hc. apply in_seq in Hc. rewrite !VU by (assumption || lia). reflexivity.
    - intros H. destruct (H m n eq_refl) as (O1 & O2). fold k in O1, O2. split; apply TO; assumption.
  Qed.
  Lemma factors_schmidt (A U d V : t) : tensor_factors [y; p] [p'; y'] K A U d V -> forall i, in_range sh i = true -> dv A i = schmidt K U (fun c => dv d [c]) V i.
  Proof.
    intros (_ & _ & _ & F) i Hi. apply in_range4 in Hi as (i0 & i1 & i2 & i3 & -> & H0 & H1 & H2 & H3). apply (F [i0; i1] [i2; i3]); cbn; rewrite !(proj2 (Nat.ltb_lt _ _)) by assumption; reflexivity.
  Qed.

  End Svd.

  (** * Truncation *)
  Section Trunc.
  Context {W : weights}.
  Variable wt : N -> W.
  Variable thr : W.
  Variables mn mx : Z.
  Hypothesis Hmn : (1 <= mn <= mx)%Z.
  Lemma values_len (d : t) k : dsh d = [k] -> length (values d) = k.
  Proof. intros E. unfold values. rewrite map_length, seq_length, E. reflexivity. Qed.
  Lemma trunc_ok (u d v : t) l l' k : dsh u = l ++ [k] -> dsh d = [k] -> dsh v = l' ++ [k] -> 1 <= k -> (Z.of_nat k <= 2 ^ 63)%Z ->
    exists j, d_truncate wt thr mn mx u d v = Some (Ok (mkD (l ++ [j]) (dv u), mkD [j] (dv d), mkD (l' ++ [j]) (dv v))) /\ 1 <= j <= k /\
      (Z.min mn (Z.of_nat k) <= Z.of_nat j <= mx)%Z /\ (j < k -> wgtb (lost_after wt j (values d)) thr = true -> Z.of_nat j = mx) /\
      (forall i, i < j -> (mn <= Z.of_nat i)%Z -> wgtb (lost_after wt i (values d)) thr = true).
  Proof.
    intros Su Sd Sv H1 H2. unfold d_truncate. rewrite Sd. cbn [last].
    destruct (@last_index_spec W N wt k [values d] thr mn mx) as (j & E & B & Lk & X1 & X2); try assumption.
    { intros row [<-|[]]. apply values_len, Sd. }
    rewrite E. cbn [obind]. exists j.
    assert (J : 1 <= j) by lia.
    split; [|split; [lia|split; [exact B|split]]].
    - replace (Z.of_nat j - 1 + 1)%Z with (Z.of_nat j) by lia. unfold d_slice. replace (Z.of_nat j <? 0)%Z with false by (symmetry; apply Z.ltb_ge; lia). rewrite Nat2Z.id.
      unfold first_n. rewrite Su, Sv, Sd, !removelast_last, !last_last. cbn [removelast last app]. rewrite Nat.min_l by exact Lk. reflexivity.
    - intros Hj G. apply X1; [exact Hj|]. exists (values d). split; [left; reflexivity|exact G].
    - intros i Hi Hm. destruct (X2 i Hi Hm) as (row & [<-|[]] & G). exact G.
  Qed.

  End Trunc.

  (** * Normalization *)
  Lemma item_scalar (s : t) : dsh s = [] -> t_item s = Ok (dv s []).
  Proof. intros E. unfold t_item. rewrite E. reflexivity. Qed.
  Lemma unit_norm_ok (d : t) k s : dsh d = [k] -> s = n_sqrt N (sum c < k, rmul (dv d [c]) (dv d [c])) -> s <> rz ->
    exists d', t_unit_norm d = Ok d' /\ dsh d' = [k] /\ forall c, c < k -> dv d' [c] = ndiv N (dv d [c]) s.
  Proof.
    intros Sd Es Z. unfold t_unit_norm, t_div_. set (S := d_map (n_sqrt N) (d_sum (d_square d))). assert (SS : dsh S = []) by reflexivity.
    assert (VS : dv S [] = s) by (unfold S; cbn [d_map d_sum d_square dv dsh]; rewrite Sd, sum_idxs1, Es; reflexivity). clearbody S.
    rewrite (item_scalar _ SS), VS. cbn [rbind]. destruct (reqb s rz) eqn:Q; [apply reqb_spec in Q; contradiction|]. unfold t_zip. rewrite Sd, SS. change (bc_shape (rev [k]) (rev [])) with (Some (rev [k])). cbv iota.
    assert (QQ : leqb (rev (rev [k])) [k] = true) by (apply leqb_eq; reflexivity). rewrite QQ. cbn [andb negb].
    eexists. split; [reflexivity|]. split; [reflexivity|]. intros c Hc. cbn [dv]. rewrite bproj_self by (cbn; rewrite (proj2 (Nat.ltb_lt _ _)) by exact Hc; reflexivity). rewrite <- VS. reflexivity.
  Qed.
  Lemma zip_last (v d : t) a b k : dsh v = [a; b; k] -> dsh d = [k] -> exists w, t_zip true rmul v d = Ok w /\ dsh w = [a; b; k] /\
    forall i j c, i < a -> j < b -> c < k -> dv w [i; j; c] = rmul (dv v [i; j; c]) (dv d [c]).
  Proof.
    intros Sv Sd. unfold t_zip. rewrite Sv, Sd. cbn [rev app bc_shape]. rewrite Nat.eqb_refl. cbn [orb]. replace (if k =? 1 then k else k) with k by (destruct (k =? 1); reflexivity). cbn [rev app].
    assert (Q : leqb [a; b; k] [a; b; k] = true) by (apply leqb_eq; reflexivity). rewrite Q. cbn [andb negb]. eexists. split; [reflexivity|]. split; [reflexivity|]. intros i j c Hi Hj Hc. cbn [dv].
    rewrite bproj_self by (apply in_range3; assumption). f_equal. f_equal. unfold bproj. cbn. destruct (Nat.eqb_spec k 1); repeat f_equal; lia.
  Qed.
  Lemma perm_last (v : t) a b k : dsh v = [a; b; k] -> exists w, t_perm [2; 0; 1] (t_conj v) = Ok w /\ dsh w = [k; a; b] /\ forall c i j, dv w [c; i; j] = rconj (dv v [i; j; c]).
  Proof.
    intros Sv. unfold t_perm. change (dsh (t_conj v)) with (dsh v). rewrite Sv. eexists. split; [reflexivity|]. split; [change (gather 0 [2; 0; 1] (dsh v) = [k; a; b]); rewrite Sv; reflexivity|]. intros c i j. reflexivity.
  Qed.
End U.
Arguments schmidt {N} k U d V i.
