(** One update of a run for a pair that is an eigenvector but not normalized: it returns, and the energy is not the eigenvalue. *)
From Verif Require Import Base Ring Index SpecIndex Dense IndexProofs BTensor BTensorArith Bcast Tensordot SpecTensordot Chain SpecChain ChainProofs ChainThms ChainInst ChainEnd
  SpecMove SpecSvd SvdDense MoveOc MoveProofs MoveInst Truncate SpecTruncate TruncateProofs BSvd BTrunc Num Lanczos SpecLanczos LanczosVec LanczosProofs SiteUpdate SpecSiteUpdate ChainNorm ChainEnergy SiteUpdateProofs SiteUpdateThms
  Dmrg DmrgProofs DmrgRun SpecDmrgRun DmrgRunProofs DmrgRunThms DmrgFree DmrgFreeThms EigenUpdate.
Set Implicit Arguments.

Section R.
  Context {N : numeric} {W : weights}.
  Add Ring Rr : (ring_th N).
  Notation t := (dense N).
  Notation idk := (fun k : nat => k).
  Notation fit := (mps_fit (@dsh N) idk).
  Notation ofit := (mpo_fit (@dsh N) idk).
  Notation sizes := (map (@size N 1)).
  Variable eps : N.
  Variable dsvd : t -> t * t * t.
  Variable wt : N -> W.
  Variable thr : W.
  Variables mn mx : Z.
  Hypothesis H_thin : forall M, (exists m n, dsh M = [m; n]) -> thin M (dsvd M) /\ real_entries (snd (fst (dsvd M))).
  Hypothesis H_val : forall M, (exists m n, dsh M = [m; n]) -> descending (snd (fst (dsvd M))).
  Hypothesis Hmn : (1 <= mn <= mx)%Z.
  Variables (hs hs2 : list t) (l e : t) (x o x' o' : nat) (ps : list nat).
  Hypothesis Sl : dsh l = [x; o; x].
  Hypothesis Se : dsh e = [x'; o'; x'].
  Hypothesis H2 : compute_2sites_hamil t_tdot t_perm hs = Ok hs2.
  Hypothesis HC : hermitian_chain hs l e ps.
  Notation L := (length hs).
  Notation lstep := (compute_left_env t_tdot t_conj).
  Notation rstep := (compute_right_env t_tdot t_conj).
  Notation step1 := (update_at lstep rstep (t_site_update eps dsvd wt thr mn mx) hs hs2).
  Notation base := (base hs l e x o x' o' ps).
  Hypothesis Pe : le N rz eps.
  Hypothesis Ze : eps <> rz.
  Definition eigen_pair (h0 : N) (sites : list t) (p : nat) : Prop :=
    forall pre a a' post hpre h h' hpost, at_pair p sites hs pre a a' post hpre h h' hpost ->
      let sh := [size 0 a; size 1 a; size 1 a'; size 2 a'] in let v := pair_amp a a' in let w := sprod sh v v in
      (forall i, in_range sh i = true -> apply sh (local_matrix pre hpre h h' post hpost l e) v i = rmul h0 (v i)) /\ w <> rz /\
      le N eps (n_sqrt N (rmul (rmul (rmul h0 (rsub ro w)) (rmul h0 (rsub ro w))) w)).
  Theorem eigen_step p s step q h0 : base p s -> dir_ok hs p step q -> good eps dsvd hs l e p (d_sites s) -> rconj h0 = h0 -> eigen_pair h0 (d_sites s) p ->
    exists s' Et b b', step1 s step = Some (Ok (s', Et)) /\ base q s' /\ d_sites s' = firstn p (d_sites s) ++ [b; b'] ++ skipn (p + 2) (d_sites s) /\ dsh Et = [] /\ dv Et [] <> h0 /\
      forall a a', nth_error (d_sites s) p = Some a -> nth_error (d_sites s) (p + 1) = Some a' ->
        let sh := [size 0 a; size 1 a; size 1 a'; size 2 a'] in
        exists k, 1 <= k <= Nat.min (size 0 a * size 1 a) (size 1 a' * size 2 a') /\ dsh b = [size 0 a; size 1 a; k] /\ dsh b' = [k; size 1 a'; size 2 a'] /\
        sprod sh (pair_amp b b') (pair_amp b b') = ro /\ (if (step =? 1)%Z then left_isometry b else right_isometry b') /\
        (k = Nat.min (size 0 a * size 1 a) (size 1 a' * size 2 a') -> exists z, forall i, in_range sh i = true -> pair_amp b b' i = rmul z (pair_amp a a' i)).
  Proof.
    intros I D (GS & GK) Rh HE.
    destruct (base_parts (N := N) (W := W) eps dsvd wt H_thin H_val H2 I) as (a & a' & h & h' & y & r & k & r' & y' & Le & Re & He & Es & Eh & L1 & L2 & LL & Na & Na' & Nh & Nh' & Sa & Sa' & NL & NR & NH & WL & WR & WH).
    assert (AT : at_pair p (d_sites s) hs (firstn p (d_sites s)) a a' (skipn (p + 2) (d_sites s)) (firstn p hs) h h' (skipn (p + 2) hs)) by (repeat split; assumption).
    pose proof I as (Ep & Hp & F & O & Ps & LE & EL & ER).
    destruct (HE _ _ _ _ _ _ _ _ AT) as (EV & W0 & HB). assert (QS : [size 0 a; size 1 a; size 1 a'; size 2 a'] = [y; r; r'; y']) by (unfold size; rewrite Sa, Sa'; reflexivity). rewrite QS in EV, W0, HB. 
    set (pre := firstn p (d_sites s)) in *. set (post := skipn (p + 2) (d_sites s)) in *. set (hpre := firstn p hs) in *. set (hpost := skipn (p + 2) hs) in *.
    assert (F' : fit (pre ++ [a; a'] ++ post) x x') by (rewrite <- Es; exact F). assert (O' : ofit (hpre ++ [h; h'] ++ hpost) (pre ++ [a; a'] ++ post) (pre ++ [a; a'] ++ post) o o') by (rewrite <- Es, <- Eh; exact O).
    assert (HC' : hermitian_chain (hpre ++ [h; h'] ++ hpost) l e (sizes (pre ++ [a; a'] ++ post))) by (rewrite <- Es, <- Eh, Ps; exact HC).
    destruct (@chain_parts N W eps dsvd wt H_thin H_val pre a a' post hpre h h' hpost x o x' o' y r k r' y') as (Fl & Fr & c & d & c' & Ol & Or & Sh & Sh'); try assumption; [congruence|].
    rewrite (@chain_sizes N pre post y r r' y' a a' k Sa Sa') in HC'.
    pose proof (@env_fits N pre post hpre hpost h h' l e x o x' o' y r r' y' c d c' Sl Se Fl Fr Ol Or Sh Sh' Le He Re WL WR WH) as FT.
    pose proof (@heff_hermitian N pre post hpre hpost h h' l e x o x' o' y r r' y' c d c' Sl Se Fl Fr Ol Or Sh Sh' Le He Re WL WR WH HC') as HM.
    pose proof (@heff_local N pre post hpre hpost h h' l e x o x' o' y r r' y' c d c' Sl Se Fl Fr Ol Or Sh Sh' Le He Re WL WR WH) as HLo.
    destruct (@merge_ok N a a' y r k r' y' Sa Sa') as (m & Em & Sm & Vm).
    assert (WV : sprod [y; r; r'; y'] (dv m) (dv m) = sprod [y; r; r'; y'] (pair_amp a a') (pair_amp a a')) by (apply sprod_ext; exact Vm).
    assert (EV' : forall i, in_range [y; r; r'; y'] i = true -> apply [y; r; r'; y'] (heff Le He Re) (dv m) i = rmul h0 (dv m i)).
    { intros i Hi. rewrite Vm by exact Hi. rewrite <- EV by exact Hi. unfold apply. apply sumf_ext. intros j Hj. apply idxs_In in Hj. rewrite HLo, Vm by assumption. reflexivity. }
    destruct (@eigen_update N Le He Re y r r' y' FT eps m Sm HM h0 Rh EV' Pe Ze) as (Et & U & kk & EU & SE & SU & K0 & VU & NE).
    { rewrite (@eigen_rr N Le He Re y r r' y' m h0 Rh EV'), WV. exact HB. }
    assert (KP : 1 <= Nat.min (y * r) (r' * y')).
    { destruct (@sum_nz N _ _ _ W0) as (i & Hi & _). apply idxs_In, in_range4 in Hi as (i0 & i1 & i2 & i3 & _ & B0 & B1 & B2 & B3). apply Nat.min_glb; [destruct y, r; lia|destruct r', y'; lia]. }
    assert (KB : (Z.of_nat (Nat.min (y * r) (r' * y')) <= 2 ^ 63)%Z).
    { apply GK. exists pre, a, a', post. split; [exact Es|]. split; [exact L1|]. unfold size. rewrite Sa, Sa'. reflexivity. }
    destruct (@split_gen N W eps dsvd wt thr mn mx H_thin H_val Hmn y r r' y' KB U SU) with (fwd := (step =? 1)%Z) as (k' & w & sc & ESv & Bk & _ & _ & _ & Q2 & Q3); [|exact KP|].
    { intros M CM. eapply GS; [exact AT|exact WL|exact WR|exact WH|exact Em|exact EU|exact CM]. }
    assert (S0 : sc <> rz).
    { intros Q. destruct (Q2 Q) as (_ & Z). assert (Z' : rmul (rmul (rconj kk) kk) (sprod [y; r; r'; y'] (dv m) (dv m)) = rz).
      { rewrite <- Z, <- (@sprod_scale N y r r' y' kk kk (dv m) (dv m)). apply sprod_ext; intros; symmetry; auto. }
      apply mul_zero in Z' as [Z'|Z']; [|rewrite WV in Z'; contradiction]. apply sq_zero in Z'. contradiction. }
    destruct (Q3 S0) as (b & b' & EH & Sb & Sb' & NB & IB & VB).
    destruct (@after_base N W eps dsvd wt thr mn mx H_thin H_val hs hs2 l e x o x' o' ps Sl Se H2 p s step q a a' Le Re He Et b b' y r k r' y') as (s1 & E1 & I1 & S1); try assumption; [|eauto|].
    { rewrite (@site_halves N W eps dsvd wt thr mn mx (step =? 1)%Z a a' He Le Re m Et U Em EU), ESv. cbn [obind]. rewrite EH. reflexivity. }
    exists s1, Et, b, b'. do 5 (split; [assumption|]). intros a1 a1' Q Q'. rewrite Na in Q. rewrite Na' in Q'. injection Q as <-. injection Q' as <-. exists k'. unfold size. rewrite Sa, Sa'. cbn [nth]. do 5 (split; [first [lia|auto]|]). intros K. exists (rmul (n_inv N sc) kk). intros i Hi.
    transitivity (rmul (rmul sc (n_inv N sc)) (pair_amp b b' i)); [rewrite (n_inv_ok N S0); ring|]. transitivity (rmul (n_inv N sc) (rmul sc (pair_amp b b' i))); [ring|]. rewrite VB, VU, Vm by assumption. ring.
  Qed.
End R.
