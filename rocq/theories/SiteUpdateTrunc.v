(** What the truncation leaves of the vector that the update of two sites found. *)
From Verif Require Import Base Ring Index SpecIndex Dense IndexProofs BTensor BTensorArith Bcast Tensordot SpecTensordot Chain SpecChain ChainProofs ChainThms ChainInst ChainEnd ModelsBlockProofs
  SpecMove SpecSvd SvdDense MoveOc MoveProofs MoveInst Truncate SpecTruncate TruncateProofs BSvd BTrunc Num Lanczos SpecLanczos LanczosVec LanczosProofs SiteUpdate SpecSiteUpdate ChainNorm ChainEnergy SiteUpdateProofs SiteUpdateThms.
Set Implicit Arguments.

Section U.
  Context {N : numeric} {W : weights}.
  Add Ring Rr : (ring_th N).
  Notation t := (dense N).
  Notation idk := (fun k : nat => k).
  Notation fit := (mps_fit (@dsh N) idk).
  Notation ofit := (mpo_fit (@dsh N) idk).
  Notation sizes := (map (@size N 1)).
  Notation nn x := (n_leb N rz x = true).
  Tactic Notation "pulln" integer(n) := eapply eq_trans; [do n (apply pull; intro); reflexivity|cbn beta].
  Ltac inn := apply sumf_ext; intros ? _.
  Lemma schmidt_inner y p p' y' k (U : t) (d e : nat -> N) (V : t) : tensor_orthonormal [y; p] k U -> tensor_orthonormal [p'; y'] k V ->
    sprod [y; p; p'; y'] (schmidt k U d V) (schmidt k U e V) = sum c < k, rmul (rconj (d c)) (e c).
  Proof.
    intros HU HV. unfold sprod, schmidt.
    transitivity (sum c < k, sum c' < k, rmul (rmul (rconj (d c)) (e c')) (rmul (sum i < y, sum j < p, rmul (rconj (dv U [i; j; c])) (dv U [i; j; c'])) (sum i < p', sum j < y', rmul (rconj (dv V [i; j; c'])) (dv V [i; j; c])))).
    - transitivity (sum i0 < y, sum i1 < p, sum i2 < p', sum i3 < y', sum c < k, sum c' < k, rmul (rmul (rconj (d c)) (e c')) (rmul (rmul (rconj (dv U [i0; i1; c])) (dv U [i0; i1; c'])) (rmul (rconj (dv V [i2; i3; c'])) (dv V [i2; i3; c])))).
      + rewrite sum_idxs_cons. inn. rewrite sum_idxs_cons. inn. rewrite sum_idxs_cons. inn. rewrite sum_idxs1. inn. cbn [nth]. rewrite prod_sum. inn. inn. rewrite !rconj_mul, rconj_conj. ring.
      + pulln 4. inn. pulln 4. inn. rewrite <- sumf_mul_r, <- sumf_mul_l. inn. rewrite <- sumf_mul_r, <- sumf_mul_l. inn. rewrite <- !sumf_mul_l. inn. rewrite <- !sumf_mul_l. inn. reflexivity.
    - apply sumf_ext. intros c Hc. apply in_seq in Hc. rewrite <- (@sum_pick N k (fun c' => rmul (rconj (d c)) (e c')) c) by lia. apply sumf_ext. intros c' Hc'. apply in_seq in Hc'.
      assert (QU : (sum i < y, sum j < p, rmul (rconj (dv U [i; j; c])) (dv U [i; j; c'])) = if c =? c' then ro else rz) by (rewrite <- (HU c c') by lia; rewrite sum_idxs_cons; inn; rewrite sum_idxs1; reflexivity).
      assert (QV : (sum i < p', sum j < y', rmul (rconj (dv V [i; j; c'])) (dv V [i; j; c])) = if c' =? c then ro else rz) by (rewrite <- (HV c' c) by lia; rewrite sum_idxs_cons; inn; rewrite sum_idxs1; reflexivity).
      rewrite QU, QV. destruct (Nat.eqb_spec c c') as [->|D]; [rewrite Nat.eqb_refl; ring|]. ring.
  Qed.
  Lemma sqnn (d : nat -> N) k : (forall c, c < k -> rconj (d c) = d c) -> nn (sum c < k, rmul (d c) (d c)).
  Proof. intros H. apply nn_sum. intros c Hc. apply in_seq in Hc. apply nn_real_sq, H. lia. Qed.
  Lemma sum_cut (f : nat -> N) k K : k <= K -> (sum c < K, f c) = radd (sum c < k, f c) (sumf N f (seq k (K - k))).
  Proof. intros H. replace K with (k + (K - k)) at 1 by lia. rewrite seq_app, sumf_app. reflexivity. Qed.
  Lemma sum_below (f : nat -> N) k K : k <= K -> (sum c < K, if c <? k then f c else rz) = sum c < k, f c.
  Proof.
    intros H. rewrite (@sum_cut _ k K H). rewrite (@sumf_zero N _ _ (seq k (K - k))); [|intros c Hc; apply in_seq in Hc; rewrite (proj2 (Nat.ltb_ge _ _)) by lia; reflexivity].
    transitivity (sum c < k, if c <? k then f c else rz); [ring|]. apply sumf_ext. intros c Hc. apply in_seq in Hc. rewrite (proj2 (Nat.ltb_lt _ _)) by lia. reflexivity.
  Qed.

  Variable eps : N.
  Variable dsvd : t -> t * t * t.
  Variable wt : N -> W.
  Variable thr : W.
  Variables mn mx : Z.
  Hypothesis Peps : le N rz eps.
  Hypothesis Zeps : eps <> rz.
  Hypothesis H_thin : forall M, (exists m n, dsh M = [m; n]) -> thin M (dsvd M) /\ real_entries (snd (fst (dsvd M))).
  Hypothesis H_val : forall M, (exists m n, dsh M = [m; n]) -> descending (snd (fst (dsvd M))).
  Hypothesis Hmn : (1 <= mn <= mx)%Z.

  (** The values of the decomposition of a unit vector, and the vector of the two sites. *)
  Lemma split_overlap y p p' y' (A : t) (fwd : bool) : (Z.of_nat (Nat.min (y * p) (p' * y')) <= 2 ^ 63)%Z -> dsh A = [y; p; p'; y'] -> (forall M, cut_matrix 2 A M -> isometries M (dsvd M)) ->
    sprod [y; p; p'; y'] (dv A) (dv A) = ro ->
    exists M b b' k w s, cut_matrix 2 A M /\ d_svd_trunc dsvd wt thr mn mx A 2 = Some (Ok w) /\ halves N fwd w = Ok (b, b') /\ dsh b = [y; p; k] /\ dsh b' = [k; p'; y'] /\ 1 <= k <= Nat.min (y * p) (p' * y') /\
      (k < Nat.min (y * p) (p' * y') -> wgtb (lost_after wt k (values (snd (fst (dsvd M))))) thr = true -> Z.of_nat k = mx) /\
      nn s /\ sprod [y; p; p'; y'] (dv A) (pair_amp b b') = s /\ rmul s s = (sum c < k, rmul (dv (snd (fst (dsvd M))) [c]) (dv (snd (fst (dsvd M))) [c])) /\
      (sum c < Nat.min (y * p) (p' * y'), rmul (dv (snd (fst (dsvd M))) [c]) (dv (snd (fst (dsvd M))) [c])) = ro /\ s <> rz /\ (Z.min mn (Z.of_nat (Nat.min (y * p) (p' * y'))) <= Z.of_nat k <= mx)%Z /\ (exists U d V, d_svd dsvd A 2 = Ok (U, d, V) /\ forall i, in_range [y; p; p'; y'] i = true -> pair_amp b b' i = schmidt k U (fun c => ndiv N (dv d [c]) s) V i).
  Proof.
    intros HK SA IA NA. set (K := Nat.min (y * p) (p' * y')) in *. set (sh := [y; p; p'; y']) in *.
    assert (K1 : 1 <= K).
    { destruct (Nat.eq_dec K 0) as [Z0|Z0]; [|lia]. exfalso. apply (n_one N). rewrite <- NA. unfold sprod. apply sumf_zero. intros i Hi. exfalso. apply idxs_In, in_range4 in Hi as (i0 & i1 & i2 & i3 & _ & H0 & H1 & H2 & H3).
      assert (1 <= y * p) by (destruct y, p; lia). assert (1 <= p' * y') by (destruct y', p'; lia). unfold K in Z0. lia. }
    destruct (@svd4 N y p p' y' dsvd H_thin A SA) as (M & U & d & V & CM & ES & Ed & TF & RE & ISO). destruct (ISO (@IA M CM)) as (OU & OV). pose proof (@factors_schmidt N y p p' y' A U d V TF) as VA.
    destruct TF as (SU & Sd & SV & _). fold K in SU, Sd, SV, OU, OV, VA. fold sh in VA.
    assert (DE : descending d). { rewrite Ed. apply H_val. destruct CM as [CM _]. eauto. }
    assert (Rd : forall c, c < K -> rconj (dv d [c]) = dv d [c]). { intros c Hc. apply RE. rewrite Sd. cbn [in_range]. rewrite (proj2 (Nat.ltb_lt _ _)) by exact Hc. reflexivity. }
    assert (NS : (sum c < K, rmul (dv d [c]) (dv d [c])) = ro). { rewrite <- NA. symmetry. rewrite <- (@schmidt_norm N y p p' y' K U (fun c => dv d [c]) V OU OV Rd). apply sprod_ext; exact VA. }
    destruct (@trunc_ok N W wt thr mn mx Hmn U d V [y; p] [p'; y'] K SU Sd SV K1 HK) as (k & ET & Bk & Bm & Bt & _).
    set (s := n_sqrt N (sum c < k, rmul (dv d [c]) (dv d [c]))).
    assert (Rk : forall c, c < k -> rconj (dv d [c]) = dv d [c]) by (intros; apply Rd; lia).
    assert (Ns : nn s) by (apply n_sqrt_nn, (@sqnn (fun c => dv d [c])), Rk).
    assert (Ss : rmul s s = sum c < k, rmul (dv d [c]) (dv d [c])) by (apply n_sqrt_sq, (@sqnn (fun c => dv d [c])), Rk).
    set (u := mkD ([y; p] ++ [k]) (dv U)) in *. set (v := mkD ([p'; y'] ++ [k]) (dv V)) in *. set (dk := mkD [k] (dv d)) in *.
    assert (Zs : s <> rz).
    { intros Q. assert (D0 : dv d [0] = rz).
      { apply sq_zero. rewrite (Rk 0) by lia. rewrite Q, rmul_0_r in Ss. destruct k as [|k0]; [lia|]. cbn [seq] in Ss. rewrite sumf_cons in Ss. symmetry in Ss. eapply nn_sum_zero; [| |exact Ss].
        - apply nn_real_sq, Rk. lia.
        - apply nn_sum. intros c Hc. apply in_seq in Hc. apply nn_real_sq, Rk. lia. }
      apply (n_one N). rewrite <- NS. apply sumf_zero. intros c Hc. apply in_seq in Hc. destruct DE as [D1 D2]. assert (Dc : dv d [c] = rz).
      { apply le_anti; [rewrite <- D0; apply D2; [lia|]|apply D1]; unfold size; rewrite Sd; cbn [nth]; lia. }
      rewrite Dc. ring. }
    destruct (@unit_norm_ok N dk k s eq_refl eq_refl Zs) as (d' & En & Sd' & Vd').
    assert (Rd' : forall c, c < k -> rconj (dv d' [c]) = dv d' [c]).
    { intros c Hc. rewrite Vd' by exact Hc. unfold dk. cbn [dv]. apply n_nn_conj. apply nn_div; [|exact Ns|exact Zs]. destruct DE as [D1 _]. apply D1. unfold size. rewrite Sd. cbn [nth]. lia. }
    assert (FIN : forall b b' : t, (forall i, in_range sh i = true -> pair_amp b b' i = schmidt k u (fun c => dv d' [c]) v i) -> sprod sh (dv A) (pair_amp b b') = s).
    { intros b b' VB. apply (@mul_eq N s); [exact Zs|]. transitivity (rmul s (sprod sh (schmidt K U (fun c => dv d [c]) V) (schmidt K U (fun c => if c <? k then dv d' [c] else rz) V))).
      - f_equal. apply sprod_ext; [exact VA|]. intros i Hi. rewrite VB by exact Hi. unfold schmidt. rewrite <- (@sum_below _ k K (proj2 Bk)). apply sumf_ext. intros c _. unfold u, v. cbn [dv]. destruct (c <? k); ring.
      - change sh with [y; p; p'; y']. rewrite (@schmidt_inner y p p' y' K U (fun c => dv d [c]) (fun c => if c <? k then dv d' [c] else rz) V OU OV), Ss, <- sumf_mul_l. rewrite <- (@sum_below (fun c => rmul (dv d [c]) (dv d [c])) k K (proj2 Bk)). apply sumf_ext. intros c Hc. apply in_seq in Hc.
        destruct (Nat.ltb_spec c k) as [L|L]; [|ring]. rewrite Rd, Vd' by lia. unfold dk. cbn [dv]. transitivity (rmul (dv d [c]) (rmul s (ndiv N (dv d [c]) s))); [ring|]. rewrite div_mul by exact Zs. reflexivity. }
    assert (TAIL : forall b b', halves N fwd (u, dk, v) = Ok (b, b') -> dsh b = [y; p; k] -> dsh b' = [k; p'; y'] -> (forall i, in_range sh i = true -> pair_amp b b' i = schmidt k u (fun c => dv d' [c]) v i) ->
      exists M b b' k w s, cut_matrix 2 A M /\ d_svd_trunc dsvd wt thr mn mx A 2 = Some (Ok w) /\ halves N fwd w = Ok (b, b') /\ dsh b = [y; p; k] /\ dsh b' = [k; p'; y'] /\ 1 <= k <= K /\
      (k < K -> wgtb (lost_after wt k (values (snd (fst (dsvd M))))) thr = true -> Z.of_nat k = mx) /\
      nn s /\ sprod sh (dv A) (pair_amp b b') = s /\ rmul s s = (sum c < k, rmul (dv (snd (fst (dsvd M))) [c]) (dv (snd (fst (dsvd M))) [c])) /\
      (sum c < K, rmul (dv (snd (fst (dsvd M))) [c]) (dv (snd (fst (dsvd M))) [c])) = ro /\ s <> rz /\ (Z.min mn (Z.of_nat K) <= Z.of_nat k <= mx)%Z /\ (exists U d V, d_svd dsvd A 2 = Ok (U, d, V) /\ forall i, in_range sh i = true -> pair_amp b b' i = schmidt k U (fun c => ndiv N (dv d [c]) s) V i)).
    { intros b b' EB Sb Sb' VB. exists M, b, b', k, (u, dk, v), s. rewrite <- Ed. split; [exact CM|]. split; [unfold d_svd_trunc; rewrite ES; exact ET|]. split; [exact EB|]. split; [exact Sb|]. split; [exact Sb'|]. split; [exact Bk|]. split; [exact Bt|]. split; [exact Ns|].
      split; [exact (FIN b b' VB)|]. split; [exact Ss|]. split; [exact NS|]. split; [exact Zs|]. split; [exact Bm|]. exists U, d, V. split; [exact ES|]. intros i Hi. rewrite VB by exact Hi. apply sumf_ext. intros c Hc. apply in_seq in Hc. rewrite Vd' by lia. reflexivity. }
    destruct fwd.
    - destruct (@zip_last N v d' p' y' k eq_refl Sd') as (w & Ew & Sw & Vw). destruct (@perm_last N w p' y' k Sw) as (b' & Eb & Sb & Vb).
      apply (TAIL u b'); [unfold halves; rewrite En; cbn [rbind]; rewrite Ew; cbn [rbind]; rewrite Eb; reflexivity|reflexivity|exact Sb|].
      intros i Hi. apply in_range4 in Hi as (i0 & i1 & i2 & i3 & -> & H0 & H1 & H2 & H3). rewrite (@pair_val N u b' k y') by (unfold size; rewrite ?Sb; reflexivity || assumption).
      unfold schmidt. cbn [nth]. apply sumf_ext. intros c Hc. apply in_seq in Hc. rewrite Vb, Vw, rconj_mul, Rd' by lia. ring.
    - destruct (@zip_last N u d' y p k eq_refl Sd') as (w & Ew & Sw & Vw). destruct (@perm_last N v p' y' k eq_refl) as (b' & Eb & Sb & Vb).
      apply (TAIL w b'); [unfold halves; rewrite En; cbn [rbind]; rewrite Ew; cbn [rbind]; rewrite Eb; reflexivity|exact Sw|exact Sb|].
      intros i Hi. apply in_range4 in Hi as (i0 & i1 & i2 & i3 & -> & H0 & H1 & H2 & H3). rewrite (@pair_val N w b' k y') by (unfold size; rewrite ?Sw, ?Sb; reflexivity || assumption).
      unfold schmidt. cbn [nth]. apply sumf_ext. intros c Hc. apply in_seq in Hc. rewrite Vb, Vw by lia. ring.
  Qed.

  Theorem site_update_trunc (fwd : bool) pre a a' post hpre h h' hpost (l e : t) x o x' o' y p k p' y' Le He Re :
    dsh l = [x; o; x] -> dsh e = [x'; o'; x'] -> length hpre = length pre -> fit (pre ++ [a; a'] ++ post) x x' -> ofit (hpre ++ [h; h'] ++ hpost) (pre ++ [a; a'] ++ post) (pre ++ [a; a'] ++ post) o o' ->
    dsh a = [y; p; k] -> dsh a' = [k; p'; y'] ->
    left_envs t_tdot t_conj hpre pre l = Ok Le -> right_envs t_tdot t_conj hpost post e = Ok Re -> two_sites_hamil t_tdot t_perm h h' = Ok He ->
    Forall (@left_isometry N) pre -> Forall (@right_isometry N) post -> hermitian_chain (hpre ++ [h; h'] ++ hpost) l e (sizes (pre ++ [a; a'] ++ post)) ->
    chain_norm (pre ++ [a; a'] ++ post) x x' = ro ->
    improvable [y; p; p'; y'] (local_matrix pre hpre h h' post hpost l e) eps (pair_amp a a') ->
    (Z.of_nat (Nat.min (y * p) (p' * y')) <= 2 ^ 63)%Z ->
    (forall s Et U M, merge t_tdot a a' = Ok s -> t_update eps s He Le Re = Ok (Et, U) -> cut_matrix 2 U M -> isometries M (dsvd M)) ->
    exists Et b b' k' U M d ov, t_site_update eps dsvd wt thr mn mx fwd a a' He Le Re = Some (Ok (Et, b, b')) /\ dsh b = [y; p; k'] /\ dsh b' = [k'; p'; y'] /\ 1 <= k' <= Nat.min (y * p) (p' * y') /\
      dsh U = [y; p; p'; y'] /\ sprod [y; p; p'; y'] (dv U) (dv U) = ro /\ energy [y; p; p'; y'] (local_matrix pre hpre h h' post hpost l e) (dv U) = dv Et [] /\
      le N (dv Et []) (energy [y; p; p'; y'] (local_matrix pre hpre h h' post hpost l e) (pair_amp a a')) /\
      cut_matrix 2 U M /\ d = snd (fst (dsvd M)) /\ (sum c < Nat.min (y * p) (p' * y'), rmul (dv d [c]) (dv d [c])) = ro /\
      (k' < Nat.min (y * p) (p' * y') -> wgtb (lost_after wt k' (values d)) thr = true -> Z.of_nat k' = mx) /\
      sprod [y; p; p'; y'] (dv U) (pair_amp b b') = ov /\ le N rz ov /\ rmul ov ov = sum c < k', rmul (dv d [c]) (dv d [c]).
  Proof.
    intros Sl Se HLn F O Sa Sa' HL HR HH IL IR HC HN HI HK HS. destruct (@chain_parts N W eps dsvd wt H_thin H_val pre a a' post hpre h h' hpost x o x' o' y p k p' y' HLn F O Sa Sa') as (Fl & Fr & q & r & q' & Ol & Or & Sh & Sh').
    rewrite (@chain_sizes N pre post y p p' y' a a' k Sa Sa') in HC.
    pose proof (@env_fits N pre post hpre hpost h h' l e x o x' o' y p p' y' q r q' Sl Se Fl Fr Ol Or Sh Sh' Le He Re HL HR HH) as FT.
    pose proof (@heff_hermitian N pre post hpre hpost h h' l e x o x' o' y p p' y' q r q' Sl Se Fl Fr Ol Or Sh Sh' Le He Re HL HR HH HC) as HM.
    pose proof (@heff_local N pre post hpre hpost h h' l e x o x' o' y p p' y' q r q' Sl Se Fl Fr Ol Or Sh Sh' Le He Re HL HR HH) as HLM.
    destruct (@merge_ok N a a' y p k p' y' Sa Sa') as (s & Es & Ss & Vs).
    rewrite (@norm_centre N pre a a' post x y p k p' y' x' Fl Sa Sa' Fr IL IR) in HN.
    destruct (@update_good N Le He Re y p p' y' eps s FT Ss HM) as (Et & U & EU & SU & NU & EnU & LeU); auto.
    { rewrite <- HN. apply sprod_ext; exact Vs. }
    { eapply improvable_ext; [exact HLM| |exact HI]. intros i Hi. symmetry. apply Vs, Hi. }
    destruct (@split_overlap y p p' y' U fwd HK SU (fun M CM => HS s Et U M Es EU CM) NU) as (M & b & b' & k' & w & ov & CM & ES & EB & Sb & Sb' & Bk & Bt & Nv & OV & SV & SN & _).
    exists Et, b, b', k', U, M, (snd (fst (dsvd M))), ov. split; [rewrite (@site_halves N W eps dsvd wt thr mn mx fwd a a' He Le Re s Et U Es EU), ES; cbn [obind]; rewrite EB; reflexivity|].
    split; [exact Sb|]. split; [exact Sb'|]. split; [exact Bk|]. split; [exact SU|]. split; [exact NU|].
    split; [rewrite <- EnU; symmetry; apply energy_mat; exact HLM|]. split; [replace (energy [y; p; p'; y'] (local_matrix pre hpre h h' post hpost l e) (pair_amp a a')) with (energy [y; p; p'; y'] (heff Le He Re) (dv s)); [exact LeU|]; rewrite (@energy_mat N _ _ _ HLM); apply energy_ext; exact Vs|].
    split; [exact CM|]. split; [reflexivity|]. split; [exact SN|]. split; [exact Bt|]. split; [exact OV|]. split; [exact Nv|exact SV].
  Qed.
End U.
