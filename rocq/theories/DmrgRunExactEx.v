(** Runs that return and a run that does not. *)
From Verif Require Import Base Ring Index SpecIndex Dense IndexProofs BTensor BTensorArith Bcast Tensordot SpecTensordot Chain SpecChain ChainProofs ChainThms ChainInst ChainEnd
  SpecMove SpecSvd SvdDense MoveOc MoveProofs MoveInst Truncate SpecTruncate TruncateProofs BSvd BTrunc Num Lanczos SpecLanczos LanczosVec LanczosProofs SiteUpdate SpecSiteUpdate ChainNorm ChainEnergy SiteUpdateProofs SiteUpdateThms
  SiteUpdateExact View SpecView Edges SpecEdges EdgesProofs MoveEx Dmrg DmrgProofs DmrgRun SpecDmrgRun DmrgRunProofs DmrgRunThms DmrgFree DmrgFreeThms DmrgRunMain SpecDmrgStuck DmrgRunExact LanczosEx SiteUpdateEx DmrgRunEx.
Set Implicit Arguments.

Section V.
  Variable N : numeric.
  Add Ring Rr : (ring_th N).
  (** What C75 and C76 ask for their energies is more than what the update needs. *)
  Lemma improvable_free (sh : list nat) (M : list nat -> list nat -> N) (eps : N) v : sprod sh v v = ro -> le N rz eps -> eps <> rz -> improvable sh M eps v -> ~ stuck sh M v.
  Proof.
    intros Nv P Z HI (lam & Hl & HE).
    assert (EL : forall lam, (forall i, in_range sh i = true -> apply sh M v i = rmul lam (v i)) -> energy sh M v = lam).
    { intros m Hm. unfold energy. transitivity (rmul m (sprod sh v v)); [|rewrite Nv; ring]. unfold sprod. rewrite <- sumf_mul_l. apply sumf_ext. intros i Hi. apply idxs_In in Hi. rewrite Hm by exact Hi. ring. }
    destruct HI as [HI | (m & Hm & HI)].
    - assert (ZR : sprod sh (residual sh M v) (residual sh M v) = rz).
      { unfold sprod. apply sumf_zero. intros i Hi. apply idxs_In in Hi. assert (Q : residual sh M v i = rz) by (unfold residual; rewrite HE, (EL lam HE) by exact Hi; unfold rsub; ring). rewrite Q. ring. }
      rewrite ZR in HI. apply le_nn in HI. assert (W : rmul eps eps = rz). { apply n_anti; [apply n_nn_mul; exact P|]. replace (ropp (rmul eps eps)) with (rsub rz (rmul eps eps)) by (unfold rsub; ring). exact HI. }
      apply mul_zero in W as [W|W]; contradiction.
    - rewrite <- (EL m HI), (EL lam HE) in Hm. unfold le in Hl. congruence.
  Qed.
End V.

Lemma state2_free (N : numeric) (eps : N) k s Es : le N rz eps -> eps <> rz -> le N eps ro -> @state2 N k s Es -> ~ stuck_at (ex_ham N) (ex_env N) (ex_env N) (d_sites s) 0.
Proof.
  intros P Z O S (pre & a & a' & post & hpre & h & h' & hpost & AP & K). pose proof (@state2_improve N eps P O k s Es S) as HI. specialize (HI _ _ _ _ _ _ _ _ AP).
  destruct S as (_ & b & b' & D & Sb & Sb' & NB & _). rewrite D in AP. pose proof (at_two AP) as (-> & -> & -> & -> & -> & -> & -> & ->). revert HI K. apply improvable_free; auto. rewrite (@norm_pair N b b' 1 2 1 1 1 Sb Sb') in NB. unfold size. rewrite Sb, Sb'. exact NB.
Qed.

(** Two sites of dimension one and an operator of energy one: the chain is an eigenvector. *)
Section Eigen.
  Context {N : numeric} {W : weights}.
  Add Ring Rr' : (ring_th N).
  Notation t := (dense N).
  Notation l := (ex_env N).
  Notation hs := [ex_op1 N; ex_op1 N].
  Notation ch := [ex_site1 N; ex_site1 N].
  Notation sh := [1; 1; 1; 1].
  Lemma eigen_stuck : stuck_at hs l l ch 0.
  Proof.
    exists [], (ex_site1 N), (ex_site1 N), [], [], (ex_op1 N), (ex_op1 N), []. split; [repeat split|]. exists ro. split; [apply nn1|]. change [size 0 (ex_site1 N); size 1 (ex_site1 N); size 1 (ex_site1 N); size 2 (ex_site1 N)] with sh.
    intros i Hi. unfold apply. cbn [idxs seq flat_map map app]. rewrite sumf_cons, sumf_nil, !nan_pair by (exact Hi || reflexivity). rewrite (@one_index i Hi). unfold local_matrix, operator. cbn. cbv beta iota delta [Nat.eqb andb negb]. rewrite !conj1. ring.
  Qed.
  Lemma eigen_canonical : canonical ch 0.
  Proof.
    split; intros j A Hj; [lia|]. cbn in Hj. assert (j = 1) by lia. subst j. intros [= <-]. intros c c' Hc Hc'. cbn in Hc, Hc'. assert (c = 0) by lia. assert (c' = 0) by lia. subst. cbn. cbv beta iota delta [Nat.eqb andb negb]. rewrite conj1. ring.
  Qed.
  Variables (slack : nat) (eps e_init crit : N) (dsvd : t -> t * t * t) (wt : N -> W) (thr : W) (mn mx : Z) (undef : t) (max_iter : nat).
  Hypothesis Hslack : 0 < slack.
  Hypothesis P : le N rz eps. Hypothesis Z : eps <> rz. Hypothesis O : le N eps ro.
  Hypothesis H_thin : forall M, (exists m n, dsh M = [m; n]) -> thin M (dsvd M) /\ real_entries (snd (fst (dsvd M))).
  Hypothesis H_val : forall M, (exists m n, dsh M = [m; n]) -> descending (snd (fst (dsvd M))).
  Hypothesis H_one : forall M, dsh M = [1; 1] -> isometries M (dsvd M).
  Hypothesis Hmn : (1 <= mn <= mx)%Z.
  Hypothesis Hiter : 1 <= max_iter.
  Lemma eigen_run : t_dmrg slack eps e_init crit dsvd wt thr mn mx undef max_iter hs ch 0 = Some UB.
  Proof.
    destruct (@start_ok N W slack crit dsvd wt undef Hslack H_thin H_val hs ch 1 1 1 1 0 max_iter) as (env & hs2 & E1 & E2 & I); try (cbn; lia); try apply nan_fit; try apply nan_ofit; try apply nan_herm; try apply eigen_canonical.
    apply (@run_stops N W slack eps e_init crit dsvd wt thr mn mx undef Hslack H_thin H_val Hmn hs ch 1 1 1 1 0 max_iter) with (k := 0) (s := mkDst ch env 0) (Es := []) (p := 0); try assumption; try (cbn; lia);
      try apply nan_fit; try apply nan_ofit; try apply nan_herm; try apply eigen_canonical; try apply nan_norm; try apply eigen_stuck.
    - intros m s Es p Hm (env' & hs2' & st & E1' & E2' & U) Ep. assert (m = 0) by lia. subst m. injection U as <- <- <-. cbn [d_oc d_sites] in *. cbn in Ep. assert (p = 0) by lia. subst p. split.
      + intros pre a a' post hpre h h' hpost Le Re He s E U M (Q1 & Q2 & Q3 & Q4) WL WR WH EM EU CM. destruct pre; [|discriminate]. destruct hpre; [|discriminate]. injection Q1 as <- <- <-. injection Q2 as <- <- <-. injection WL as <-. injection WR as <-.
        apply H_one. destruct (@merge_ok N (ex_site1 N) (ex_site1 N) 1 1 1 1 1 eq_refl eq_refl) as (s0 & EM' & Ss & Vs). rewrite EM in EM'. injection EM' as <-.
        destruct (@chain_parts N W eps dsvd wt H_thin H_val [] (ex_site1 N) (ex_site1 N) [] [] (ex_op1 N) (ex_op1 N) [] 1 1 1 1 1 1 1 1 1 eq_refl (@nan_fit N) (@nan_ofit N) eq_refl eq_refl) as (Fl & Fr & c & d & c' & Ol & Or & Sh & Sh').
        pose proof (@env_fits N [] [] [] [] (ex_op1 N) (ex_op1 N) l l 1 1 1 1 1 1 1 1 c d c' eq_refl eq_refl Fl Fr Ol Or Sh Sh' l He l eq_refl eq_refl WH) as FT.
        pose proof (@heff_hermitian N [] [] [] [] (ex_op1 N) (ex_op1 N) l l 1 1 1 1 1 1 1 1 c d c' eq_refl eq_refl Fl Fr Ol Or Sh Sh' l He l eq_refl eq_refl WH (@nan_herm N)) as HM.
        destruct (@update_run N l He l 1 1 1 1 FT eps s Ss HM) as (_ & _ & _ & _ & _ & _ & _ & _ & _ & _ & _ & Et' & U' & EU' & _ & _ & SU & _). change (d_full [1; 1; 1] (ro : N)) with l in EU. rewrite EU in EU'. injection EU' as _ <-.
        destruct CM as [CM _]. rewrite SU in CM. exact CM.
      + intros b (pre & a & a' & post & Q1 & Q2 & ->). destruct pre; [|discriminate]. injection Q1 as <- <- <-. cbn. lia.
    - unfold sweep_size. cbn [length]. change (2 - 1 =? 1) with true. cbv iota. lia.
    - exists env, hs2, 0%Z. split; [exact E1|]. split; [exact E2|]. reflexivity.
  Qed.
End Eigen.
