(** The update of two sites of a chain. *)
From Verif Require Import Base Ring Index SpecIndex Dense IndexProofs BTensor BTensorArith Bcast Tensordot SpecTensordot Chain SpecChain ChainProofs ChainThms ChainInst ChainEnd
  SpecMove SpecSvd SvdDense MoveOc MoveProofs MoveInst Truncate SpecTruncate TruncateProofs BSvd BTrunc Num Lanczos SpecLanczos LanczosVec LanczosProofs SiteUpdate SpecSiteUpdate ChainNorm ChainEnergy SiteUpdateProofs.
Set Implicit Arguments.

Section K.
  Variable N : numeric.
  Add Ring Rr : (ring_th N).
  Notation t := (dense N).
  Variables (sh : list nat) (M M' : list nat -> list nat -> N).
  Notation inr i := (in_range sh i = true).
  Hypothesis HM : forall i j, inr i -> inr j -> M i j = M' i j.
  Lemma apply_mat v i : inr i -> apply sh M v i = apply sh M' v i.
  Proof. intros Hi. apply sumf_ext. intros j Hj. apply idxs_In in Hj. rewrite HM by assumption. reflexivity. Qed.
  Lemma energy_mat v : energy sh M v = energy sh M' v.
  Proof. apply sumf_ext. intros i Hi. apply idxs_In in Hi. rewrite apply_mat by exact Hi. reflexivity. Qed.
  Lemma residual_mat v i : inr i -> residual sh M v i = residual sh M' v i.
  Proof. intros Hi. unfold residual. rewrite apply_mat, energy_mat by exact Hi. reflexivity. Qed.
  Lemma improvable_ext eps v v' : (forall i, inr i -> v' i = v i) -> improvable sh M' eps v' -> improvable sh M eps v.
  Proof.
    intros E [H|(lam & Hl & H)]; [left|right; exists lam; split; [exact Hl|]].
    - replace (sprod sh (residual sh M v) (residual sh M v)) with (sprod sh (residual sh M' v') (residual sh M' v')); [exact H|].
      assert (Q : forall i, inr i -> residual sh M' v' i = residual sh M v i).
      { intros i Hi. rewrite residual_mat by exact Hi. unfold residual. rewrite (@apply_ext N sh M' v' v i E), (@energy_ext N sh M' v' v E), E by exact Hi. reflexivity. }
      apply sprod_ext; exact Q.
    - intros i Hi. rewrite apply_mat, <- (@apply_ext N sh M' v' v i E), H, E by exact Hi. reflexivity.
  Qed.
End K.

Section U.
  Variable N : numeric.
  Add Ring Rr : (ring_th N).
  Notation t := (dense N).
  Notation idk := (fun k : nat => k).
  Notation fit := (mps_fit (@dsh N) idk).
  Notation ofit := (mpo_fit (@dsh N) idk).
  Notation sizes := (map (@size N 1)).
  Notation nn x := (n_leb N rz x = true).
  Ltac inn := apply sumf_ext; intros ? _.

  Lemma update_good (L H E : t) x p p' x' eps s : fits L H E x p p' x' -> dsh s = [x; p; p'; x'] -> hermitian_kernel [x; p; p'; x'] (heff L H E) -> sprod [x; p; p'; x'] (dv s) (dv s) = ro ->
    le N rz eps -> eps <> rz -> improvable [x; p; p'; x'] (heff L H E) eps (dv s) ->
    exists Et U, t_update eps s H L E = Ok (Et, U) /\ dsh U = [x; p; p'; x'] /\ sprod [x; p; p'; x'] (dv U) (dv U) = ro /\
      energy [x; p; p'; x'] (heff L H E) (dv U) = dv Et [] /\ le N (dv Et []) (energy [x; p; p'; x'] (heff L H E) (dv s)).
  Proof.
    intros F S HM Nv P Z [Hr|(lam & Hl & HE)].
    - destruct (@update_ok N L H E x p p' x' F eps s S HM Nv P Z Hr) as (Et & U & EU & _ & SU & (K1 & K2 & _) & B). exists Et, U. auto.
    - destruct (@update_eigen N L H E x p p' x' F eps s S HM Nv P Z lam HE) as (Et & U & EU & _ & SU & K). rewrite Hl in K. destruct K as [K1 K2].
      assert (EL : energy [x; p; p'; x'] (heff L H E) (dv s) = lam).
      { unfold energy. transitivity (rmul lam (sprod [x; p; p'; x'] (dv s) (dv s))); [|rewrite Nv; ring]. unfold sprod. rewrite <- sumf_mul_l. apply sumf_ext. intros i Hi. apply idxs_In in Hi. rewrite HE by exact Hi. ring. }
      exists Et, U. split; [exact EU|]. split; [exact SU|]. split; [|split].
      + rewrite <- Nv. apply sprod_ext; exact K2.
      + rewrite K1, <- EL. apply energy_ext. exact K2.
      + rewrite K1, EL. apply le_refl.
  Qed.

  Context {W : weights}.
  Variable eps : N.
  Variable dsvd : t -> t * t * t.
  Variable wt : N -> W.
  Variable thr : W.
  Variables mn mx : Z.
  Hypothesis Peps : le N rz eps.
  Hypothesis Zeps : eps <> rz.
  Hypothesis H_thin : forall M, (exists m n, dsh M = [m; n]) -> thin M (dsvd M) /\ real_entries (snd (fst (dsvd M))).
  Hypothesis H_val : forall M, (exists m n, dsh M = [m; n]) -> descending (snd (fst (dsvd M))).
  Hypothesis Hmn : (1 <= mn <= mx)%Z.

  (** * From the new vector to the two sites *)
  Section S.
    Variables y p p' y' : nat.
    Notation sh := [y; p; p'; y'].
    Notation K := (Nat.min (y * p) (p' * y')).
    Hypothesis HK : (Z.of_nat K <= 2 ^ 63)%Z.
    Variables A : t.
    Hypothesis SA : dsh A = sh.
    Hypothesis IA : forall M, cut_matrix 2 A M -> isometries M (dsvd M).

    Lemma sq_nn (d : nat -> N) k : (forall c, c < k -> rconj (d c) = d c) -> nn (sum c < k, rmul (d c) (d c)).
    Proof. intros H. apply nn_sum. intros c Hc. apply in_seq in Hc. apply nn_real_sq, H. lia. Qed.
    Definition halves (fwd : bool) (y : t * t * t) : result (t * t) :=
      let '(u, d, v) := y in
      do d <- t_unit_norm d ;
      if fwd then do vd <- t_zip true rmul v d ; do b <- t_perm [2; 0; 1] (t_conj vd) ; Ok (u, b)
      else do ud <- t_zip true rmul u d ; do b <- t_perm [2; 0; 1] (t_conj v) ; Ok (ud, b).
    (** Whatever the norm of the vector: [s] is the norm of what is kept. *)
    Lemma split_gen (fwd : bool) : 1 <= K -> exists k w s, d_svd_trunc dsvd wt thr mn mx A 2 = Some (Ok w) /\ 1 <= k <= K /\ (Z.min mn (Z.of_nat K) <= Z.of_nat k <= mx)%Z /\
      nn s /\ (k = K -> rmul s s = sprod sh (dv A) (dv A)) /\ (s = rz -> halves fwd w = UB /\ sprod sh (dv A) (dv A) = rz) /\
      (s <> rz -> exists b b', halves fwd w = Ok (b, b') /\ dsh b = [y; p; k] /\ dsh b' = [k; p'; y'] /\
        sprod sh (pair_amp b b') (pair_amp b b') = ro /\ (if fwd then left_isometry b else right_isometry b') /\
        (k = K -> forall i, in_range sh i = true -> rmul s (pair_amp b b' i) = dv A i)).
    Proof.
      intros K1. destruct (@svd4 N y p p' y' dsvd H_thin A SA) as (M & U & d & V & CM & ES & Ed & TF & RE & ISO). destruct (ISO (@IA M CM)) as (OU & OV). pose proof (@factors_schmidt N y p p' y' A U d V TF) as VA.
      destruct TF as (SU & Sd & SV & _).
      assert (DE : descending d). { rewrite Ed. apply H_val. destruct CM as [CM _]. eauto. }
      assert (Rd : forall c, c < K -> rconj (dv d [c]) = dv d [c]). { intros c Hc. apply RE. rewrite Sd. cbn [in_range]. rewrite (proj2 (Nat.ltb_lt _ _)) by exact Hc. reflexivity. }
      assert (NS : (sum c < K, rmul (dv d [c]) (dv d [c])) = sprod sh (dv A) (dv A)). { symmetry. rewrite <- (@schmidt_norm N y p p' y' K U (fun c => dv d [c]) V OU OV Rd). apply sprod_ext; exact VA. }
      destruct (@trunc_ok N W wt thr mn mx Hmn U d V [y; p] [p'; y'] K SU Sd SV K1 HK) as (k & ET & Bk & Bm & _).
      set (s := n_sqrt N (sum c < k, rmul (dv d [c]) (dv d [c]))).
      assert (Rk : forall c, c < k -> rconj (dv d [c]) = dv d [c]) by (intros; apply Rd; lia).
      assert (Ns : nn s) by (apply n_sqrt_nn, (@sq_nn (fun c => dv d [c])), Rk).
      assert (Ss : rmul s s = sum c < k, rmul (dv d [c]) (dv d [c])) by (apply n_sqrt_sq, (@sq_nn (fun c => dv d [c])), Rk).
      set (u := mkD ([y; p] ++ [k]) (dv U)) in *. set (v := mkD ([p'; y'] ++ [k]) (dv V)) in *. set (dk := mkD [k] (dv d)) in *.
      exists k, (u, dk, v), s. split; [unfold d_svd_trunc; rewrite ES; exact ET|]. split; [exact Bk|]. split; [exact Bm|]. split; [exact Ns|]. split; [intros EK; rewrite Ss, EK; exact NS|]. split.
      { intros Q. split.
        - unfold halves, t_unit_norm, t_div_. rewrite item_scalar by reflexivity. cbn [rbind]. replace (dv (d_map (n_sqrt N) (d_sum (d_square dk))) []) with s by (unfold s; cbn [d_map d_sum d_square dv dsh dk]; rewrite sum_idxs1; reflexivity).
          rewrite (proj2 (reqb_spec N s rz) Q). reflexivity.
        - assert (D0 : dv d [0] = rz).
          { apply sq_zero. rewrite (Rk 0) by lia. rewrite Q, rmul_0_r in Ss. destruct k as [|k0]; [lia|]. cbn [seq] in Ss. rewrite sumf_cons in Ss. symmetry in Ss. eapply nn_sum_zero; [| |exact Ss].
            - apply nn_real_sq, Rk. lia.
            - apply nn_sum. intros c Hc. apply in_seq in Hc. apply nn_real_sq, Rk. lia. }
          rewrite <- NS. apply sumf_zero. intros c Hc. apply in_seq in Hc. destruct DE as [D1 D2]. assert (Dc : dv d [c] = rz).
          { apply le_anti; [rewrite <- D0; apply D2; [lia|]|apply D1]; unfold size; rewrite Sd; cbn [nth]; lia. }
          rewrite Dc. ring. }
      intros Zs.
      destruct (@unit_norm_ok N dk k s eq_refl eq_refl Zs) as (d' & En & Sd' & Vd').
      assert (Rd' : forall c, c < k -> rconj (dv d' [c]) = dv d' [c]).
      { intros c Hc. rewrite Vd' by exact Hc. unfold dk. cbn [dv]. apply n_nn_conj. apply nn_div; [|exact Ns|exact Zs]. destruct DE as [D1 _]. apply D1. unfold size. rewrite Sd. cbn [nth]. lia. }
      assert (OU' : tensor_orthonormal [y; p] k u) by (apply ortho_ext with U; [reflexivity|]; apply ortho_less with K; [lia|exact OU]).
      assert (OV' : tensor_orthonormal [p'; y'] k v) by (apply ortho_ext with V; [reflexivity|]; apply ortho_less with K; [lia|exact OV]).
      assert (N1 : (sum c < k, rmul (dv d' [c]) (dv d' [c])) = ro).
      { apply (@mul_eq N (rmul s s)); [intros Q; apply mul_zero in Q as [Q|Q]; contradiction|]. rewrite <- sumf_mul_l, rmul_1_r. etransitivity; [|symmetry; exact Ss]. apply sumf_ext. intros c Hc. apply in_seq in Hc. rewrite Vd' by lia.
        transitivity (rmul (rmul s (ndiv N (dv dk [c]) s)) (rmul s (ndiv N (dv dk [c]) s))); [ring|]. rewrite !div_mul by exact Zs. reflexivity. }
      (* the two sites as a sum of products *)
      assert (FIN : forall b b' : t, dsh b = [y; p; k] -> dsh b' = [k; p'; y'] -> (forall i, in_range sh i = true -> pair_amp b b' i = schmidt k u (fun c => dv d' [c]) v i) ->
        sprod sh (pair_amp b b') (pair_amp b b') = ro /\ (k = K -> forall i, in_range sh i = true -> rmul s (pair_amp b b' i) = dv A i)).
      { intros b b' _ _ VB. split.
        - rewrite <- N1, <- (@schmidt_norm N y p p' y' k u (fun c => dv d' [c]) v OU' OV' Rd'). apply sprod_ext; exact VB.
        - intros EK i Hi. rewrite VB, VA by exact Hi.
          unfold schmidt. rewrite EK, <- sumf_mul_l. apply sumf_ext. intros c Hc. apply in_seq in Hc. rewrite Vd' by lia. unfold dk, u, v. cbn [dv]. rewrite <- (@div_mul N (dv d [c]) s Zs) at 2. ring. }
      destruct fwd.
      - destruct (@zip_last N v d' p' y' k eq_refl Sd') as (w & Ew & Sw & Vw). destruct (@perm_last N w p' y' k Sw) as (b' & Eb & Sb & Vb).
        exists u, b'. unfold halves. rewrite En. cbn [rbind]. rewrite Ew. cbn [rbind]. rewrite Eb. cbn [rbind].
        split; [reflexivity|]. split; [reflexivity|]. split; [exact Sb|].
        destruct (FIN u b' eq_refl Sb) as [F1 F2].
        { intros i Hi. apply in_range4 in Hi as (i0 & i1 & i2 & i3 & -> & H0 & H1 & H2 & H3). rewrite (@pair_val N u b' k y') by (unfold size; rewrite ?Sb; reflexivity || assumption).
          unfold schmidt. cbn [nth]. apply sumf_ext. intros c Hc. apply in_seq in Hc. rewrite Vb, Vw, rconj_mul, Rd' by lia. ring. }
        split; [exact F1|]. split; [|exact F2]. apply (@left_of_U N nat (fun k => k) u y p k); reflexivity || exact OU'.
      - destruct (@zip_last N u d' y p k eq_refl Sd') as (w & Ew & Sw & Vw). destruct (@perm_last N v p' y' k eq_refl) as (b' & Eb & Sb & Vb).
        exists w, b'. unfold halves. rewrite En. cbn [rbind]. rewrite Ew. cbn [rbind]. rewrite Eb. cbn [rbind].
        split; [reflexivity|]. split; [exact Sw|]. split; [exact Sb|].
        destruct (FIN w b' Sw Sb) as [F1 F2].
        { intros i Hi. apply in_range4 in Hi as (i0 & i1 & i2 & i3 & -> & H0 & H1 & H2 & H3). rewrite (@pair_val N w b' k y') by (unfold size; rewrite ?Sw, ?Sb; reflexivity || assumption).
          unfold schmidt. cbn [nth]. apply sumf_ext. intros c Hc. apply in_seq in Hc. rewrite Vb, Vw by lia. ring. }
        split; [exact F1|]. split; [|exact F2]. apply (@right_of_V N nat (fun k => k) b' v p' y' k); try (unfold size; rewrite Sb; reflexivity); [exact Vb|exact OV'].
    Qed.
    Lemma split_ok (fwd : bool) : sprod sh (dv A) (dv A) = ro -> exists b b' k w, d_svd_trunc dsvd wt thr mn mx A 2 = Some (Ok w) /\ halves fwd w = Ok (b, b') /\
      dsh b = [y; p; k] /\ dsh b' = [k; p'; y'] /\ 1 <= k <= K /\ (Z.min mn (Z.of_nat K) <= Z.of_nat k <= mx)%Z /\
      sprod sh (pair_amp b b') (pair_amp b b') = ro /\ (if fwd then left_isometry b else right_isometry b') /\
      (k = K -> forall i, in_range sh i = true -> pair_amp b b' i = dv A i).
    Proof.
      intros NA. assert (K1 : 1 <= K).
      { destruct (Nat.eq_dec K 0) as [Z0|Z0]; [|lia]. exfalso. apply (n_one N). rewrite <- NA. unfold sprod. apply sumf_zero. intros i Hi. exfalso. apply idxs_In, in_range4 in Hi as (i0 & i1 & i2 & i3 & _ & H0 & H1 & H2 & H3).
        assert (1 <= y * p) by (destruct y, p; lia). assert (1 <= p' * y') by (destruct y', p'; lia). lia. }
      destruct (split_gen fwd K1) as (k & w & s & ES & Bk & Bm & Ns & Q1 & Q2 & Q3).
      destruct Q3 as (b & b' & EH & Sb & Sb' & NB & IB & VB). { intros Q. destruct (Q2 Q) as [_ Q']. apply (n_one N). rewrite <- NA. exact Q'. }
      exists b, b', k, w. do 8 (split; [assumption|]). intros EK i Hi. assert (S1 : s = ro). { apply root_unique; [exact Ns|apply nn1|]. rewrite Q1, NA by exact EK. ring. }
      rewrite <- VB by assumption. rewrite S1. ring.
    Qed.
  End S.

  Lemma site_halves fwd a a' h l r s Et U : merge t_tdot a a' = Ok s -> t_update eps s h l r = Ok (Et, U) ->
    t_site_update eps dsvd wt thr mn mx fwd a a' h l r = obind (d_svd_trunc dsvd wt thr mn mx U 2) (fun w => Some (do x <- halves fwd w ; Ok (Et, fst x, snd x))).
  Proof.
    intros Es EU. unfold t_site_update, site_update. rewrite Es. cbn [obind]. rewrite EU. cbn [obind fst snd]. destruct (d_svd_trunc _ _ _ _ _ U 2) as [[[[u d] v]| |]|]; cbn [obind]; try reflexivity. f_equal. unfold halves.
    destruct (t_unit_norm d) as [d'| |]; cbn [rbind]; try reflexivity. destruct fwd.
    - destruct (t_zip true rmul v d') as [w| |]; cbn [rbind]; try reflexivity. destruct (t_perm _ _); reflexivity.
    - destruct (t_zip true rmul u d') as [w| |]; cbn [rbind]; try reflexivity. destruct (t_perm _ _); reflexivity.
  Qed.

  (** * The update in the chain *)
  Lemma site_update_env (fwd : bool) pre a a' post hpre h h' hpost (l e : t) x o x' o' y p k p' y' q r q' Le He Re :
    dsh l = [x; o; x] -> dsh e = [x'; o'; x'] -> fit pre x y -> fit post y' x' -> ofit hpre pre pre o q -> ofit hpost post post q' o' ->
    dsh h = [q; p; r; p] -> dsh h' = [r; p'; q'; p'] -> dsh a = [y; p; k] -> dsh a' = [k; p'; y'] ->
    left_envs t_tdot t_conj hpre pre l = Ok Le -> right_envs t_tdot t_conj hpost post e = Ok Re -> two_sites_hamil t_tdot t_perm h h' = Ok He ->
    Forall (@left_isometry N) pre -> Forall (@right_isometry N) post -> hermitian_chain (hpre ++ [h; h'] ++ hpost) l e (sizes pre ++ [p; p'] ++ sizes post) ->
    chain_norm (pre ++ [a; a'] ++ post) x x' = ro ->
    improvable [y; p; p'; y'] (local_matrix pre hpre h h' post hpost l e) eps (pair_amp a a') ->
    (Z.of_nat (Nat.min (y * p) (p' * y')) <= 2 ^ 63)%Z ->
    (forall s Et U M, merge t_tdot a a' = Ok s -> t_update eps s He Le Re = Ok (Et, U) -> cut_matrix 2 U M -> isometries M (dsvd M)) ->
    exists Et b b' k', t_site_update eps dsvd wt thr mn mx fwd a a' He Le Re = Some (Ok (Et, b, b')) /\ dsh b = [y; p; k'] /\ dsh b' = [k'; p'; y'] /\
      chain_norm (pre ++ [b; b'] ++ post) x x' = ro /\ (if fwd then left_isometry b else right_isometry b') /\
      1 <= k' <= Nat.min (y * p) (p' * y') /\ (Z.min mn (Z.of_nat (Nat.min (y * p) (p' * y'))) <= Z.of_nat k' <= mx)%Z /\
      (k' = Nat.min (y * p) (p' * y') ->
        expectation (pre ++ [b; b'] ++ post) (pre ++ [b; b'] ++ post) (hpre ++ [h; h'] ++ hpost) l e = dv Et [] /\
        le N (dv Et []) (expectation (pre ++ [a; a'] ++ post) (pre ++ [a; a'] ++ post) (hpre ++ [h; h'] ++ hpost) l e)).
  Proof.
    intros Sl Se Fl Fr Ol Or Sh Sh' Sa Sa' HL HR HH IL IR HC HN HI HK HS.
    pose proof (@env_fits N pre post hpre hpost h h' l e x o x' o' y p p' y' q r q' Sl Se Fl Fr Ol Or Sh Sh' Le He Re HL HR HH) as FT.
    pose proof (@heff_hermitian N pre post hpre hpost h h' l e x o x' o' y p p' y' q r q' Sl Se Fl Fr Ol Or Sh Sh' Le He Re HL HR HH HC) as HM.
    pose proof (@heff_local N pre post hpre hpost h h' l e x o x' o' y p p' y' q r q' Sl Se Fl Fr Ol Or Sh Sh' Le He Re HL HR HH) as HLM.
    destruct (@merge_ok N a a' y p k p' y' Sa Sa') as (s & Es & Ss & Vs).
    rewrite (@norm_centre N pre a a' post x y p k p' y' x' Fl Sa Sa' Fr IL IR) in HN.
    destruct (@update_good Le He Re y p p' y' eps s FT Ss HM) as (Et & U & EU & SU & NU & EnU & LeU); auto.
    { rewrite <- HN. apply sprod_ext; exact Vs. }
    { eapply improvable_ext; [exact HLM| |exact HI]. intros i Hi. symmetry. apply Vs, Hi. }
    destruct (@split_ok y p p' y' HK U SU (fun M CM => HS s Et U M Es EU CM) fwd NU) as (b & b' & k' & w & ES & EB & Sb & Sb' & Bk & Bm & NB & IB & VB).
    exists Et, b, b', k'. split.
    { rewrite (@site_halves fwd a a' He Le Re s Et U Es EU), ES. cbn [obind]. rewrite EB. reflexivity. }
    split; [exact Sb|]. split; [exact Sb'|]. split; [rewrite (@norm_centre N pre b b' post x y p k' p' y' x' Fl Sb Sb' Fr IL IR); exact NB|]. split; [exact IB|]. split; [exact Bk|]. split; [exact Bm|].
    intros EK.
    rewrite (@pair_energy N pre post hpre hpost h h' l e x o x' o' y p p' y' q r q' Sl Se Fl Fr Ol Or Sh Sh' Le He Re HL HR HH b b' k' Sb Sb').
    rewrite (@pair_energy N pre post hpre hpost h h' l e x o x' o' y p p' y' q r q' Sl Se Fl Fr Ol Or Sh Sh' Le He Re HL HR HH a a' k Sa Sa').
    rewrite (@energy_ext N _ _ _ _ (VB EK)), EnU. split; [reflexivity|]. rewrite <- (@energy_ext N _ _ _ _ Vs). exact LeU.
  Qed.

  Lemma ofit_split h1 h2 : forall a1 a2 b1 b2 u w, length a1 = length h1 -> length b1 = length h1 ->
    ofit (h1 ++ h2) (a1 ++ a2) (b1 ++ b2) u w -> exists v, ofit h1 a1 b1 u v /\ ofit h2 a2 b2 v w.
  Proof.
    induction h1 as [|A h1 IH]; intros [|s a1] a2 [|s' b1] b2 u w L1 L2 H; try discriminate; cbn [app mpo_fit] in *; [eauto|].
    destruct H as (k & m & m' & E & E1 & E2 & H). apply IH in H as (v & H1 & H2); [|cbn in *; lia..]. exists v. split; [exists k, m, m'; auto|exact H2].
  Qed.
  Lemma chain_parts pre a a' post hpre h h' hpost x o x' o' y p k p' y' : length hpre = length pre -> fit (pre ++ [a; a'] ++ post) x x' -> ofit (hpre ++ [h; h'] ++ hpost) (pre ++ [a; a'] ++ post) (pre ++ [a; a'] ++ post) o o' ->
    dsh a = [y; p; k] -> dsh a' = [k; p'; y'] ->
    fit pre x y /\ fit post y' x' /\ exists q r q', ofit hpre pre pre o q /\ ofit hpost post post q' o' /\ dsh h = [q; p; r; p] /\ dsh h' = [r; p'; q'; p'].
  Proof.
    intros HL F O Sa Sa'. apply mps_fit_app in F as (z & F1 & (s1 & k1 & E1 & (s2 & k2 & E2 & F2))). rewrite Sa in E1. rewrite Sa' in E2. injection E1 as <- _ _. injection E2 as _ _ <-. split; [exact F1|]. split; [exact F2|].
    apply ofit_split in O as (q & O1 & O); try (symmetry; exact HL). destruct O as (r & m & m' & Eh & Em & Em' & (q' & m2 & m2' & Eh' & Em2 & Em2' & O)).
    rewrite Sa in Em, Em'. rewrite Sa' in Em2, Em2'. cbn in Em, Em', Em2, Em2'. injection Em as <-. injection Em' as <-. injection Em2 as <-. injection Em2' as <-. exists q, r, q'. auto.
  Qed.
  Lemma site_update_ok (fwd : bool) pre a a' post hpre h h' hpost (l e : t) x o x' o' y p k p' y' Le He Re :
    dsh l = [x; o; x] -> dsh e = [x'; o'; x'] -> length hpre = length pre -> fit (pre ++ [a; a'] ++ post) x x' -> ofit (hpre ++ [h; h'] ++ hpost) (pre ++ [a; a'] ++ post) (pre ++ [a; a'] ++ post) o o' ->
    dsh a = [y; p; k] -> dsh a' = [k; p'; y'] ->
    left_envs t_tdot t_conj hpre pre l = Ok Le -> right_envs t_tdot t_conj hpost post e = Ok Re -> two_sites_hamil t_tdot t_perm h h' = Ok He ->
    Forall (@left_isometry N) pre -> Forall (@right_isometry N) post -> hermitian_chain (hpre ++ [h; h'] ++ hpost) l e (sizes (pre ++ [a; a'] ++ post)) ->
    chain_norm (pre ++ [a; a'] ++ post) x x' = ro ->
    improvable [y; p; p'; y'] (local_matrix pre hpre h h' post hpost l e) eps (pair_amp a a') ->
    (Z.of_nat (Nat.min (y * p) (p' * y')) <= 2 ^ 63)%Z ->
    (forall s Et U M, merge t_tdot a a' = Ok s -> t_update eps s He Le Re = Ok (Et, U) -> cut_matrix 2 U M -> isometries M (dsvd M)) ->
    exists Et b b' k', t_site_update eps dsvd wt thr mn mx fwd a a' He Le Re = Some (Ok (Et, b, b')) /\ dsh b = [y; p; k'] /\ dsh b' = [k'; p'; y'] /\
      fit (pre ++ [b; b'] ++ post) x x' /\ chain_norm (pre ++ [b; b'] ++ post) x x' = ro /\ (if fwd then left_isometry b else right_isometry b') /\
      1 <= k' <= Nat.min (y * p) (p' * y') /\ (Z.min mn (Z.of_nat (Nat.min (y * p) (p' * y'))) <= Z.of_nat k' <= mx)%Z /\
      (k' = Nat.min (y * p) (p' * y') ->
        expectation (pre ++ [b; b'] ++ post) (pre ++ [b; b'] ++ post) (hpre ++ [h; h'] ++ hpost) l e = dv Et [] /\
        le N (dv Et []) (expectation (pre ++ [a; a'] ++ post) (pre ++ [a; a'] ++ post) (hpre ++ [h; h'] ++ hpost) l e)).
  Proof.
    intros Sl Se HLn F O Sa Sa' HL HR HH IL IR HC HN HI HK HS. destruct (@chain_parts pre a a' post hpre h h' hpost x o x' o' y p k p' y' HLn F O Sa Sa') as (Fl & Fr & q & r & q' & Ol & Or & Sh & Sh').
    rewrite (@chain_sizes N pre post y p p' y' a a' k Sa Sa') in HC.
    destruct (@site_update_env fwd pre a a' post hpre h h' hpost l e x o x' o' y p k p' y' q r q' Le He Re Sl Se Fl Fr Ol Or Sh Sh' Sa Sa' HL HR HH IL IR HC HN HI HK HS)
      as (Et & b & b' & k' & EB & Sb & Sb' & NB & IB & Bk & Bm & EE).
    exists Et, b, b', k'. split; [exact EB|]. split; [exact Sb|]. split; [exact Sb'|]. split; [|auto]. apply mps_fit_app. exists y. split; [exact Fl|]. exists p, k'. split; [exact Sb|]. exists p', y'. split; [exact Sb'|exact Fr].
  Qed.
  (** Any update that returns: the norm of the chain does not matter, only that it is not zero. *)
  Lemma site_update_any (fwd : bool) pre a a' post hpre h h' hpost (l e : t) x o x' o' y p k p' y' Le He Re Et b b' :
    dsh l = [x; o; x] -> dsh e = [x'; o'; x'] -> length hpre = length pre -> fit (pre ++ [a; a'] ++ post) x x' -> ofit (hpre ++ [h; h'] ++ hpost) (pre ++ [a; a'] ++ post) (pre ++ [a; a'] ++ post) o o' ->
    dsh a = [y; p; k] -> dsh a' = [k; p'; y'] ->
    left_envs t_tdot t_conj hpre pre l = Ok Le -> right_envs t_tdot t_conj hpost post e = Ok Re -> two_sites_hamil t_tdot t_perm h h' = Ok He ->
    Forall (@left_isometry N) pre -> Forall (@right_isometry N) post -> hermitian_chain (hpre ++ [h; h'] ++ hpost) l e (sizes (pre ++ [a; a'] ++ post)) ->
    chain_norm (pre ++ [a; a'] ++ post) x x' <> rz ->
    (Z.of_nat (Nat.min (y * p) (p' * y')) <= 2 ^ 63)%Z ->
    (forall s Et U M, merge t_tdot a a' = Ok s -> t_update eps s He Le Re = Ok (Et, U) -> cut_matrix 2 U M -> isometries M (dsvd M)) ->
    t_site_update eps dsvd wt thr mn mx fwd a a' He Le Re = Some (Ok (Et, b, b')) ->
    exists k', dsh b = [y; p; k'] /\ dsh b' = [k'; p'; y'] /\
      fit (pre ++ [b; b'] ++ post) x x' /\ chain_norm (pre ++ [b; b'] ++ post) x x' = ro /\ (if fwd then left_isometry b else right_isometry b') /\
      1 <= k' <= Nat.min (y * p) (p' * y') /\ (Z.min mn (Z.of_nat (Nat.min (y * p) (p' * y'))) <= Z.of_nat k' <= mx)%Z.
  Proof.
    intros Sl Se HLn F O Sa Sa' HL HR HH IL IR HC HN HK HS EB. destruct (@chain_parts pre a a' post hpre h h' hpost x o x' o' y p k p' y' HLn F O Sa Sa') as (Fl & Fr & q & r & q' & Ol & Or & Sh & Sh').
    rewrite (@chain_sizes N pre post y p p' y' a a' k Sa Sa') in HC.
    pose proof (@env_fits N pre post hpre hpost h h' l e x o x' o' y p p' y' q r q' Sl Se Fl Fr Ol Or Sh Sh' Le He Re HL HR HH) as FT.
    pose proof (@heff_hermitian N pre post hpre hpost h h' l e x o x' o' y p p' y' q r q' Sl Se Fl Fr Ol Or Sh Sh' Le He Re HL HR HH HC) as HM.
    destruct (@merge_ok N a a' y p k p' y' Sa Sa') as (s & Es & Ss & Vs).
    rewrite (@norm_centre N pre a a' post x y p k p' y' x' Fl Sa Sa' Fr IL IR) in HN.
    destruct (@update_run N Le He Re y p p' y' FT eps s Ss HM) as (_ & _ & _ & _ & _ & _ & _ & _ & _ & _ & _ & Et' & U & EU & _ & _ & SU & _).
    assert (K1 : 1 <= Nat.min (y * p) (p' * y')).
    { destruct (Nat.eq_dec (Nat.min (y * p) (p' * y')) 0) as [Z0|Z0]; [|lia]. exfalso. apply HN. unfold sprod. apply sumf_zero. intros i Hi. exfalso. apply idxs_In, in_range4 in Hi as (i0 & i1 & i2 & i3 & _ & H0 & H1 & H2 & H3).
      assert (1 <= y * p) by (destruct y, p; lia). assert (1 <= p' * y') by (destruct y', p'; lia). lia. }
    destruct (@split_gen y p p' y' HK U SU (fun M CM => HS s Et' U M Es EU CM) fwd K1) as (k' & w & sc & ES & Bk & Bm & Ns & _ & Q2 & Q3).
    rewrite (@site_halves fwd a a' He Le Re s Et' U Es EU), ES in EB. cbn [obind] in EB.
    destruct (reqb sc rz) eqn:Q; [apply reqb_spec in Q; destruct (Q2 Q) as [Q' _]; rewrite Q' in EB; discriminate|].
    destruct Q3 as (c & c' & EH & Sb & Sb' & NB & IB & _). { intros Q'. rewrite (proj2 (reqb_spec N _ _) Q') in Q. discriminate. }
    rewrite EH in EB. cbn [rbind fst snd] in EB. injection EB as _ <- <-. exists k'. split; [exact Sb|]. split; [exact Sb'|]. split; [|split; [|auto]].
    - apply mps_fit_app. exists y. split; [exact Fl|]. exists p, k'. split; [exact Sb|]. exists p', y'. split; [exact Sb'|exact Fr].
    - rewrite (@norm_centre N pre c c' post x y p k' p' y' x' Fl Sb Sb' Fr IL IR). exact NB.
  Qed.
End U.
