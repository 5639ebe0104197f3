(** Which runs of DMRG on dense tensors come to an end. *)
From Verif Require Import Base Ring Index SpecIndex Dense IndexProofs BTensor BTensorArith Bcast Tensordot SpecTensordot Chain SpecChain ChainProofs ChainThms ChainInst ChainEnd
  SpecMove SpecSvd SvdDense MoveOc MoveProofs MoveInst Truncate SpecTruncate TruncateProofs BSvd BTrunc Num Lanczos SpecLanczos LanczosVec LanczosProofs SiteUpdate SpecSiteUpdate ChainNorm ChainEnergy SiteUpdateProofs SiteUpdateThms
  SiteUpdateExact View SpecView Edges SpecEdges EdgesProofs MoveEx Dmrg DmrgProofs DmrgRun SpecDmrgRun DmrgRunProofs DmrgRunThms DmrgFree DmrgFreeThms DmrgRunMain SpecDmrgStuck.
Set Implicit Arguments.

Section Loops.
  Variable T : Type.
  Variables lenv renv : T -> T -> T -> result T.
  Variable upd2 : bool -> T -> T -> T -> T -> T -> option (result (T * T * T)).
  Variables hs hs2 : list T.
  Notation ups := (updates lenv renv upd2 hs hs2).
  Notation one := (update_at lenv renv upd2 hs hs2).
  Lemma updates_stop k s step re s1 st1 l1 : ups k s step re = Some (Ok (s1, st1, l1)) -> one s1 st1 = Some UB -> forall n, k < n -> ups n s step re = Some UB.
  Proof.
    intros U O n. induction n as [|n IH]; intros Hn; [lia|]. rewrite updates_snoc. destruct (Nat.eq_dec k n) as [<-|D]; [rewrite U; cbn [obind]; rewrite O; reflexivity|]. rewrite IH by lia. reflexivity.
  Qed.
End Loops.

Section R.
  Context {N : numeric} {W : weights}.
  Notation t := (dense N).
  Notation idk := (fun k : nat => k).
  Notation fit := (mps_fit (@dsh N) idk).
  Notation ofit := (mpo_fit (@dsh N) idk).
  Notation sizes := (map (@size N 1)).
  Variable eps : N.
  Variable dsvd : t -> t * t * t.
  Variable wt : N -> W.
  Variable thr : W.
  Variables mn mx : Z.
  Hypothesis Peps : le N rz eps.
  Hypothesis Zeps : eps <> rz.
  Hypothesis H_thin : forall M, (exists m n, dsh M = [m; n]) -> thin M (dsvd M) /\ real_entries (snd (fst (dsvd M))).
  Hypothesis H_val : forall M, (exists m n, dsh M = [m; n]) -> descending (snd (fst (dsvd M))).
  Hypothesis Hmn : (1 <= mn <= mx)%Z.
  Variables (hs hs2 : list t) (l e : t) (x o x' o' : nat) (ps : list nat).
  Hypothesis Sl : dsh l = [x; o; x].
  Hypothesis Se : dsh e = [x'; o'; x'].
  Hypothesis H2 : compute_2sites_hamil t_tdot t_perm hs = Ok hs2.
  Hypothesis HC : hermitian_chain hs l e ps.
  Notation L := (length hs).
  Notation step1 := (update_at (compute_left_env t_tdot t_conj) (compute_right_env t_tdot t_conj) (t_site_update eps dsvd wt thr mn mx) hs hs2).
  Notation inv := (inv hs l e x o x' o' ps).

  Lemma step_exact p s step q : inv p s -> dir_ok hs p step q -> good eps dsvd hs l e p (d_sites s) -> chain_norm (d_sites s) x x' = ro ->
    (stuck_at hs l e (d_sites s) p -> step1 s step = Some UB) /\
    (~ stuck_at hs l e (d_sites s) p -> exists s' E, step1 s step = Some (Ok (s', E)) /\ dsh E = []).
  Proof.
    intros I D (GS & GK) HN.
    destruct (@inv_parts N W eps dsvd wt H_thin H_val hs hs2 l e x o x' o' ps H2 p s I) as (a & a' & h & h' & y & r & k & r' & y' & Le & Re & He & Es & Eh & L1 & L2 & LL & Na & Na' & Nh & Nh' & Sa & Sa' & NL & NR & NH & WL & WR & WH).
    pose proof I as (Ep & Hp & F & O & Ps & LE & EL & ER & IL & IR).
    assert (HC' : hermitian_chain (firstn p hs ++ [h; h'] ++ skipn (p + 2) hs) l e (sizes (firstn p (d_sites s) ++ [a; a'] ++ skipn (p + 2) (d_sites s)))) by (rewrite <- Es, <- Eh, Ps; exact HC).
    destruct (@site_update_exact N W eps dsvd wt thr mn mx Peps Zeps H_thin H_val Hmn (step =? 1)%Z (firstn p (d_sites s)) a a' (skipn (p + 2) (d_sites s)) (firstn p hs) h h' (skipn (p + 2) hs) l e x o x' o' y r k r' y' Le He Re)
      as (SU & SG); try assumption; try (rewrite <- Es; assumption); [congruence|rewrite <- Es, <- Eh; exact O| | |].
    - apply GK. exists (firstn p (d_sites s)), a, a', (skipn (p + 2) (d_sites s)). split; [exact Es|]. split; [exact L1|]. unfold size. rewrite Sa, Sa'. reflexivity.
    - intros s0 Et0 U M0 EM EU0 CM. eapply GS; [|exact WL|exact WR|exact WH|exact EM|exact EU0|exact CM]. repeat split; assumption.
    - assert (SK : stuck_at hs l e (d_sites s) p <-> stuck [y; r; r'; y'] (local_matrix (firstn p (d_sites s)) (firstn p hs) h h' (skipn (p + 2) (d_sites s)) (skipn (p + 2) hs) l e) (pair_amp a a')).
      { split.
        - intros (pre & b & b' & post & hpre & g & g' & hpost & (Q1 & Q2 & Q3 & Q4) & S).
          assert (P1 : firstn p (d_sites s) = pre) by (rewrite Q1, firstn_app, Q3, Nat.sub_diag, <- Q3, firstn_all; apply app_nil_r).
          assert (P2 : firstn p hs = hpre) by (rewrite Q2, firstn_app, Q4, Nat.sub_diag, <- Q4, firstn_all; apply app_nil_r).
          rewrite P1 in *. rewrite P2 in *. rewrite Q1 in Es at 1. apply app_inv_head in Es. rewrite Q2 in Eh at 1. apply app_inv_head in Eh. injection Es as -> -> R1. injection Eh as -> -> R2. rewrite <- R1, <- R2. unfold size in S. rewrite Sa, Sa' in S. exact S.
        - intros S. exists (firstn p (d_sites s)), a, a', (skipn (p + 2) (d_sites s)), (firstn p hs), h, h', (skipn (p + 2) hs). split; [repeat split; assumption|]. unfold size. rewrite Sa, Sa'. exact S. }
      rewrite SK. split.
      + intros S. specialize (SU S). unfold update_at. rewrite Ep. 
        replace (Z.of_nat p + 1)%Z with (Z.of_nat (p + 1)) by lia. replace (Z.of_nat p - 1 + 1)%Z with (Z.of_nat p) by lia. replace (Z.of_nat p + 2 + 1)%Z with (Z.of_nat (p + 3)) by lia.
        rewrite (zget_nat _ _ Na), (zget_nat _ _ Na'), (zget_nat _ _ NH), (zget_nat _ _ NL), (zget_nat _ _ NR). cbn [obind]. rewrite SU. reflexivity.
      + intros S. destruct (SG S) as (E & b & b' & k' & EB & Sb & Sb' & F' & N' & IB & Bk & _).
        destruct (@after_update N W eps dsvd wt thr mn mx H_thin H_val hs hs2 l e x o x' o' ps Sl Se H2 p s step q a a' Le Re He E b b' y r k r' y' I D Na Na' NL NR NH EB Sa Sa') as (s1 & E1 & I1 & S1); [eauto|exact IB|]. exists s1, E. split; [exact E1|].
        assert (F0 : fit (firstn p (d_sites s) ++ [a; a'] ++ skipn (p + 2) (d_sites s)) x x') by (rewrite <- Es; exact F).
        assert (O0 : ofit (firstn p hs ++ [h; h'] ++ skipn (p + 2) hs) (firstn p (d_sites s) ++ [a; a'] ++ skipn (p + 2) (d_sites s)) (firstn p (d_sites s) ++ [a; a'] ++ skipn (p + 2) (d_sites s)) o o') by (rewrite <- Es, <- Eh; exact O).
        destruct (@chain_parts N W eps dsvd wt H_thin H_val (firstn p (d_sites s)) a a' (skipn (p + 2) (d_sites s)) (firstn p hs) h h' (skipn (p + 2) hs) x o x' o' y r k r' y') as (Fl & Fr & c & d & c' & Ol & Or & Sh & Sh'); try assumption; [congruence|].
        rewrite (@chain_sizes N _ _ y r r' y' a a' k Sa Sa') in HC'.
        pose proof (@env_fits N _ _ _ _ h h' l e x o x' o' y r r' y' c d c' Sl Se Fl Fr Ol Or Sh Sh' Le He Re WL WR WH) as FT.
        pose proof (@heff_hermitian N _ _ _ _ h h' l e x o x' o' y r r' y' c d c' Sl Se Fl Fr Ol Or Sh Sh' Le He Re WL WR WH HC') as HM.
        destruct (@merge_ok N a a' y r k r' y' Sa Sa') as (s0 & EM & Ss & Vs).
        destruct (@update_run N Le He Re y r r' y' FT eps s0 Ss HM) as (_ & _ & _ & _ & _ & _ & _ & _ & _ & _ & _ & Et' & U & EU & SE & _).
        rewrite (@site_halves N W eps dsvd wt thr mn mx (step =? 1)%Z a a' He Le Re s0 Et' U EM EU) in EB. destruct (d_svd_trunc _ _ _ _ _ U 2) as [[w| |]|]; cbn [obind] in EB; try discriminate.
        destruct (halves _ _ w); cbn [rbind] in EB; try discriminate. injection EB as <- _ _. exact SE.
  Qed.

  Notation ups := (t_updates eps dsvd wt thr mn mx hs hs2).
  Notation re := (Z.of_nat L - 2)%Z.
  Variables (s0 : dst t t) (p0 : nat) (step0 : Z) (ph0 : nat).
  Hypothesis I0 : inv p0 s0.
  Hypothesis J0 : at_phase (L - 1) ph0 p0 step0.
  Hypothesis N1 : chain_norm (d_sites s0) x x' = ro.
  Variable B : nat.
  Hypothesis G0 : forall m s st Es p, m < B -> ups m s0 step0 re = Some (Ok (s, st, Es)) -> d_oc s = Z.of_nat p -> good eps dsvd hs l e p (d_sites s).
  Lemma N0 : chain_norm (d_sites s0) x x' <> rz.
  Proof. rewrite N1. apply n_one. Qed.
  Lemma run_stuck n s st Es p : n < B -> ups n s0 step0 re = Some (Ok (s, st, Es)) -> d_oc s = Z.of_nat p -> stuck_at hs l e (d_sites s) p -> step1 s st = Some UB.
  Proof.
    intros HB U Ep0 SK. destruct (@run_any N W eps dsvd wt thr mn mx H_thin H_val Hmn hs hs2 l e x o x' o' ps Sl Se H2 HC s0 p0 step0 ph0 I0 J0 N0 B G0 n s st Es ltac:(lia) U) as (p1 & I1 & J1 & HN).
    destruct (@phase_ok N W eps dsvd wt thr mn mx H_thin H_val hs hs2 l e x o x' o' ps s0 step0 B G0 _ _ _ _ I1 J1) as (q & D & J2). pose proof I1 as (Ep & _). assert (p1 = p) by lia. subst p1.
    destruct (@step_exact p s st q I1 D (@G0 n s st Es p HB U Ep)) as (K & _); [destruct HN as [(_ & ->) | (_ & E1 & _)]; assumption|]. exact (K SK).
  Qed.
  Hypothesis NS : forall m s st Es p, m < B -> ups m s0 step0 re = Some (Ok (s, st, Es)) -> d_oc s = Z.of_nat p -> ~ stuck_at hs l e (d_sites s) p.
  Lemma run_free_go : forall n, n <= B -> exists s step Es, ups n s0 step0 re = Some (Ok (s, step, Es)) /\ Forall (fun E => dsh E = []) Es.
  Proof.
    induction n as [|n IH]; intros HB; [|destruct IH as (s & step & Es & U & F); [lia|]].
    - exists s0, step0, []. split; [reflexivity|constructor].
    - destruct (@run_any N W eps dsvd wt thr mn mx H_thin H_val Hmn hs hs2 l e x o x' o' ps Sl Se H2 HC s0 p0 step0 ph0 I0 J0 N0 B G0 n s step Es ltac:(lia) U) as (p & I1 & J1 & HN).
      destruct (@phase_ok N W eps dsvd wt thr mn mx H_thin H_val hs hs2 l e x o x' o' ps s0 step0 B G0 _ _ _ _ I1 J1) as (q & D & J2). pose proof I1 as (Ep & _).
      destruct (@step_exact p s step q I1 D (@G0 n s step Es p HB U Ep)) as (_ & K); [destruct HN as [(_ & ->) | (_ & E1 & _)]; assumption|].
      destruct (K (@NS n s step Es p HB U Ep)) as (s' & E & UE & SE).
      exists s', (turn re step (d_oc s')), (Es ++ [E]). split; [unfold t_updates in U |- *; rewrite updates_snoc, U; cbn [obind]; rewrite UE; reflexivity|]. apply Forall_app. auto.
  Qed.
End R.

Section Main.
  Context {N : numeric} {W : weights}.
  Notation t := (dense N).
  Notation idk := (fun k : nat => k).
  Notation fit := (mps_fit (@dsh N) idk).
  Notation ofit := (mpo_fit (@dsh N) idk).
  Notation sizes := (map (@size N 1)).
  Variable slack : nat.
  Variables eps e_init crit : N.
  Variable dsvd : t -> t * t * t.
  Variable wt : N -> W.
  Variable thr : W.
  Variables mn mx : Z.
  Variable undef : t.
  Hypothesis Hslack : 0 < slack.
  Hypothesis H_thin : forall M, (exists m n, dsh M = [m; n]) -> thin M (dsvd M) /\ real_entries (snd (fst (dsvd M))).
  Hypothesis H_val : forall M, (exists m n, dsh M = [m; n]) -> descending (snd (fst (dsvd M))).
  Hypothesis Hmn : (1 <= mn <= mx)%Z.
  Variables (hs sites : list t) (x o x' o' oc max_iter : nat).
  Notation L := (length hs).
  Notation l := (@d_full N [x; o; x] ro).
  Notation e := (@d_full N [x'; o'; x'] ro).
  Hypothesis HL : 2 <= L.
  Hypothesis Ho : oc < L.
  Hypothesis Fs : fit sites x x'.
  Hypothesis Os : ofit hs sites sites o o'.
  Hypothesis HC : hermitian_chain hs l e (sizes sites).
  Notation p0 := (start_pos (length sites) oc).
  Notation reach := (reached slack eps dsvd wt thr mn mx undef hs sites oc).
  Notation run := (t_dmrg slack eps e_init crit dsvd wt thr mn mx undef max_iter hs sites oc).
  Notation total := (max_iter * sweep_size (length sites)).
  Hypothesis Hiter : 1 <= max_iter.
  Hypothesis Cs : canonical sites oc.
  Hypothesis Peps : le N rz eps.
  Hypothesis Zeps : eps <> rz.
  Hypothesis Oeps : le N eps ro.
  Hypothesis N1 : chain_norm sites x x' = ro.
  Theorem run_stops k s Es p : (forall m s Es p, m <= k -> reach m s Es -> d_oc s = Z.of_nat p -> svd_right dsvd eps hs l e (d_sites s) p /\ forall b, bond_max (d_sites s) p b -> (Z.of_nat b <= 2 ^ 63)%Z) ->
    k < sweep_size (length sites) -> reach k s Es -> d_oc s = Z.of_nat p -> stuck_at hs l e (d_sites s) p -> run = Some UB.
  Proof.
    intros Hgood Hk (env & hs2 & st & E1 & E2 & U) Ep SK. pose proof (@len_sites N hs sites o o' Os) as LS.
    destruct (@start_ok N W slack crit dsvd wt undef Hslack H_thin H_val hs sites x o x' o' oc max_iter HL Ho Fs Os HC Cs) as (env' & hs2' & E1' & E2' & I). rewrite E1 in E1'. rewrite E2 in E2'. injection E1' as <-. injection E2' as <-.
    unfold t_dmrg. rewrite E1. cbn [obind]. rewrite E2. cbn [obind]. unfold t_dmrg_impl. rewrite (@norm_ok N W slack crit dsvd wt undef Hslack H_thin H_val hs sites x o x' o' oc HL Ho Fs Os), N1. cbn [obind].
    destruct (reqb ro rz) eqn:Q; [exfalso; apply reqb_spec in Q; exact (n_one N Q)|]. unfold le in Oeps. rewrite Oeps. cbn [orb negb].
    destruct (@start_phase L oc HL Ho) as (ph & J). 
    assert (GR : forall m s st Es p, m < S k -> t_updates eps dsvd wt thr mn mx hs hs2 m (mkDst sites env (Z.of_nat p0)) (start_step (length sites) oc) (Z.of_nat L - 2) = Some (Ok (s, st, Es)) -> d_oc s = Z.of_nat p -> good eps dsvd hs l e p (d_sites s)).
    { intros m s1 st1 Es1 p1 Hm U1. apply (@Hgood m s1 Es1 p1 ltac:(lia)). exists env, hs2, st1. split; [exact E1|]. split; [exact E2|]. rewrite <- U1, LS. reflexivity. }
    destruct max_iter as [|mi]; [lia|]. cbn [sweeps].
    assert (SU : t_updates eps dsvd wt thr mn mx hs hs2 (sweep_size (length sites)) (mkDst sites env (Z.of_nat p0)) (start_step (length sites) oc) (Z.of_nat (length sites) - 2) = Some UB).
    { unfold t_updates. eapply updates_stop; [exact U| |exact Hk]. rewrite LS in I, GR, U, Hk. 
      apply (@run_stuck N W eps dsvd wt thr mn mx Peps Zeps H_thin H_val Hmn hs hs2 l e x o x' o' (sizes sites) eq_refl eq_refl E2 HC (mkDst sites env (Z.of_nat (start_pos L oc))) (start_pos L oc) (start_step L oc) ph I J N1 (S k) GR k s st Es p); try assumption. lia. }
    unfold t_updates in SU. rewrite SU. reflexivity.
  Qed.
  Hypothesis Hgood : forall k s Es p, k < total -> reach k s Es -> d_oc s = Z.of_nat p ->
    svd_right dsvd eps hs l e (d_sites s) p /\ forall b, bond_max (d_sites s) p b -> (Z.of_nat b <= 2 ^ 63)%Z.
  Hypothesis Hmove : forall k s Es A Mx, k <= total -> reach k s Es -> d_oc s = 0%Z -> nth_error (d_sites s) 1 = Some A -> cut_matrix 1 A Mx -> isometries Mx (dsvd Mx).
  Theorem run_returns : (forall k s Es p, k < total -> reach k s Es -> d_oc s = Z.of_nat p -> ~ stuck_at hs l e (d_sites s) p) -> exists E sites' c, run = Some (Ok (E, sites', c)).
  Proof.
    intros Hns.
    pose proof (@len_sites N hs sites o o' Os) as LS. destruct (@start_ok N W slack crit dsvd wt undef Hslack H_thin H_val hs sites x o x' o' oc max_iter HL Ho Fs Os HC Cs) as (env & hs2 & E1 & E2 & I). unfold t_dmrg. rewrite E1. cbn [obind]. rewrite E2. cbn [obind]. unfold t_dmrg_impl. rewrite (@norm_ok N W slack crit dsvd wt undef Hslack H_thin H_val hs sites x o x' o' oc HL Ho Fs Os), N1. cbn [obind].
    assert (HN : chain_norm sites x x' <> rz) by (rewrite N1; apply n_one). destruct (reqb ro rz) eqn:Q; [exfalso; apply reqb_spec in Q; exact (n_one N Q)|]. unfold le in Oeps. rewrite Oeps. cbn [orb negb].
    destruct (@start_phase L oc HL Ho) as (ph & J). pose proof (@good_reached N W slack eps dsvd wt thr mn mx undef hs sites x o x' o' oc max_iter Os Hgood env hs2 E1 E2) as GR.
    assert (IR : forall m s st Es p, m < total -> t_updates eps dsvd wt thr mn mx hs hs2 m (mkDst sites env (Z.of_nat p0)) (start_step (length sites) oc) (Z.of_nat L - 2) = Some (Ok (s, st, Es)) -> d_oc s = Z.of_nat p -> ~ stuck_at hs l e (d_sites s) p).
    { intros m s st Es p Hm U. apply (@Hns m s Es p Hm). exists env, hs2, st. split; [exact E1|]. split; [exact E2|]. rewrite <- U, LS. reflexivity. }
    destruct (@sweeps_go t (compute_left_env t_tdot t_conj) (compute_right_env t_tdot t_conj) (t_site_update eps dsvd wt thr mn mx) hs hs2 (t_converged crit) (Z.of_nat (length sites) - 2) (sweep_size (length sites)) (fun E => dsh E = []) max_iter
      (mkD [] (fun _ => e_init)) (mkDst sites env (Z.of_nat p0)) (start_step (length sites) oc)) as (E & s & SW).
    { intros m Hm. rewrite LS in I, GR, IR, Hm |- *. apply (@run_free_go N W eps dsvd wt thr mn mx Peps Zeps H_thin H_val Hmn hs hs2 l e x o x' o' (sizes sites) eq_refl eq_refl E2 HC (mkDst sites env (Z.of_nat (start_pos L oc))) (start_pos L oc) (start_step L oc) ph I J N1 (max_iter * sweep_size L) GR IR m Hm). }
    { reflexivity. }
    { intros A B SA SB. unfold t_converged, t_zip, t_item. rewrite SA, SB. cbn. change (1 =? 1) with true. cbn. eauto. }
    rewrite SW. cbn [obind]. apply sweeps_inv in SW as (j & st & Es & Hj & Hj1 & U & EE). specialize (Hj1 Hiter). assert (R : reach (j * sweep_size L) s Es) by (exists env, hs2, st; rewrite <- LS at 1; auto).
    destruct (@finish N W slack eps crit dsvd wt thr mn mx undef Hslack H_thin H_val Hmn hs sites x o x' o' oc max_iter HL Ho Fs Os HC Hgood Hmove Hiter j s Es E Hj Hj1 R HN) as (s' & EF & _). cbv zeta in EF |- *. rewrite EF. eauto.
  Qed.
End Main.
