(** Whole runs on the two spins of BellEx.v with bonds of dimension one: every state met has both spins up, every energy reported is minus one. *)
From Verif Require Import Base Ring Index SpecIndex Dense IndexProofs BTensor BTensorArith Bcast Tensordot SpecTensordot Chain SpecChain ChainProofs ChainThms ChainInst ChainEnd
  SpecMove SpecSvd SvdDense SvdEx MoveOc MoveProofs MoveInst MoveEx Truncate SpecTruncate TruncateProofs BSvd BTrunc Num Lanczos SpecLanczos LanczosVec LanczosProofs LanczosEx SiteUpdate SpecSiteUpdate ChainNorm ChainEnergy SiteUpdateProofs SiteUpdateThms
  SiteUpdateTrunc SiteUpdateEx BellEx SiteUpdateExact Dmrg DmrgProofs DmrgRun SpecDmrgRun DmrgRunProofs DmrgRunThms DmrgFree DmrgFreeThms DmrgRunMain SpecDmrgStuck DmrgRunExact DmrgRunExactEx DmrgRunEx.
Set Implicit Arguments.

Section Run.
  Context {N : numeric} {W : weights}.
  Add Ring Rr : (ring_th N).
  Notation t := (dense N).
  Notation sh := [1; 2; 2; 1].
  Notation l := (ex_env N).
  Notation sx := (ex_sx N).
  Notation hs := [sx; sx].
  Notation ch := [ex_spin N; ex_spin N].
  Notation dsvd := (@ex_bell N).
  Variables (slack : nat) (eps e_init crit : N) (wt : N -> W) (thr : W) (undef : t) (max_iter : nat).
  Hypothesis Hslack : 0 < slack.
  Hypothesis P : le N rz eps. Hypothesis Z : eps <> rz. Hypothesis O : le N eps ro.
  Let O2 : le N (rmul eps eps) ro := eps_sq P O.
  Let B : (1 <= 1 <= 1)%Z := Logic.conj (Z.le_refl 1) (Z.le_refl 1).
  Lemma bfit : mps_fit (@dsh N) (fun k => k) ch 1 1.
  Proof. exists 2, 1. split; [reflexivity|]. exists 2, 1. split; reflexivity. Qed.
  Lemma bofit : mpo_fit (@dsh N) (fun k => k) hs ch ch 1 1.
  Proof. exists 1, 2, 2. repeat split. exists 1, 2, 2. repeat split. Qed.
  Lemma bcanonical : canonical ch 0.
  Proof.
    split; intros j A Hj; [lia|]. cbn in Hj. assert (j = 1) by lia. subst j. intros [= <-]. intros c c' Hc Hc'. cbn in Hc, Hc'. assert (c = 0) by lia. assert (c' = 0) by lia. subst. cbn. cbv beta iota delta [Nat.eqb andb negb]. rewrite conj1. ring.
  Qed.
  Lemma at_bell (b b' : t) pre a a' post hpre h h' hpost : at_pair 0 [b; b'] hs pre a a' post hpre h h' hpost -> pre = [] /\ a = b /\ a' = b' /\ post = [] /\ hpre = [] /\ h = sx /\ h' = sx /\ hpost = [].
  Proof. intros (E1 & E2 & L1 & L2). destruct pre; [|discriminate]. destruct hpre; [|discriminate]. injection E1 as <- <- <-. injection E2 as <- <- <-. repeat split. Qed.
  Lemma bell_good (b b' : t) : dsh b = [1; 2; 1] -> dsh b' = [1; 2; 1] -> up_only N (pair_amp b b') -> good eps dsvd hs l l 0 [b; b'].
  Proof.
    intros Sb Sb' UP. split.
    - intros pre a a' post hpre h h' hpost Le Re He s E U M AT EL ER EH ES EU CM. apply at_bell in AT as (-> & -> & -> & -> & -> & -> & -> & ->). injection EL as <-. injection ER as <-.
      destruct (@merge_ok N b b' 1 2 1 2 1 Sb Sb') as (s' & Es' & Ss & Vs). rewrite ES in Es'. injection Es' as <-.
      destruct (@bell_update N eps P Z O2 He s EH Ss) as (Et & U' & EU' & _ & _ & SU & _ & U1 & U2 & U3 & U0). { unfold up_only. rewrite !Vs by reflexivity. exact UP. }
      rewrite EU in EU'. injection EU' as _ <-. exact (@bell_cut N U M SU U1 U2 U3 U0 CM).
    - intros k (pre & a & a' & post & E & L1 & ->). destruct pre; [|discriminate]. injection E as <- <- <-. unfold size. rewrite Sb, Sb'. cbn. lia.
  Qed.
  Notation ups hs2 := (t_updates eps dsvd wt thr 1 1 hs hs2).
  Notation binv := (inv hs l l 1 1 1 1 [2; 2]).
  Definition state (k : nat) (s : dst t t) (Es : list t) : Prop :=
    binv 0 s /\ gauge 0 (d_sites s) /\ exists b b', d_sites s = [b; b'] /\ dsh b = [1; 2; 1] /\ dsh b' = [1; 2; 1] /\ up_only N (pair_amp b b') /\ (1 <= k -> exists Es' E, Es = Es' ++ [E] /\ dv E [] = ropp ro).
  Lemma states env hs2 : compute_2sites_hamil t_tdot t_perm hs = Ok hs2 -> binv 0 (mkDst ch env 0) ->
    forall k s st Es, ups hs2 k (mkDst ch env 0) 0 0 = Some (Ok (s, st, Es)) -> st = 0%Z /\ state k s Es.
  Proof.
    intros E2 I0. induction k as [|k IH]; intros s st Es U.
    - injection U as <- <- <-. split; [reflexivity|]. split; [exact I0|]. split; [split; cbn; [constructor|constructor; [|constructor]; exact (proj2 bcanonical 1 (ex_spin N) ltac:(cbn; lia) eq_refl)]|]. exists (ex_spin N), (ex_spin N). cbn [d_sites]. repeat split; try apply spin_up. lia.
    - apply snoc_inv in U as (s1 & st1 & l1 & E & U1 & UE & -> & ->). fold (t_updates eps dsvd wt thr 1 1 hs hs2) in U1. destruct (IH _ _ _ U1) as (-> & S1). split; [reflexivity|].
      destruct S1 as (I & _ & b & b' & D1 & Sb & Sb' & UP & _). pose proof (bell_good Sb Sb' UP) as G1. rewrite <- D1 in G1.
      assert (DO : dir_ok hs 0 0 0) by (split; [reflexivity|]; split; [auto|]; cbn; lia).
      assert (NB : chain_norm (d_sites s1) 1 1 = ro) by (rewrite D1, (@norm_pair N b b' 1 2 1 2 1 Sb Sb'); apply up_unit, UP).
      destruct (@step_any N W eps dsvd wt thr 1 1 (@bell_thin N) (@bell_val N) B hs hs2 l l 1 1 1 1 [2; 2] eq_refl eq_refl E2 (@bell_herm N) 0 s1 0 0 s E I DO G1) as (I2 & N2 & G2); [rewrite NB; apply n_one|exact UE|].
      split; [exact I2|]. split; [exact G2|].
      destruct (inv_parts (N := N) (W := W) eps dsvd wt (@bell_thin N) (@bell_val N) E2 I) as (a & a' & h & h' & y & r & kk & r' & y' & Le & Re & He & Es & Eh & L1 & L2 & LL & Na & Na' & Nh & Nh' & Sa & Sa' & NL & NR & NH & WL & WR & WH).
      rewrite D1 in Na, Na', WL, WR. injection Na as <-. injection Na' as <-. injection Nh as <-. injection Nh' as <-. injection WL as <-. injection WR as <-.
      destruct (@bell_site N eps P Z O2 W wt thr false b b' He WH Sb Sb' UP) as (Et & c & c' & EB & _ & VE & Sc & Sc' & UC).
      destruct I as (OC & _). cbn [Z.of_nat] in OC. revert UE. unfold update_at. rewrite OC, D1. change (0 =? 1)%Z with false. change (zget [b; b'] 0) with (Ok b). cbn [obind]. change (zget [b; b'] (0 + 1)) with (Ok b'). cbn [obind].
      change (zget hs2 0) with (zget hs2 (Z.of_nat 0)). rewrite (zget_nat _ _ NH). cbn [obind]. change (zget (d_env s1) (0 - 1 + 1)) with (zget (d_env s1) (Z.of_nat 0)). rewrite (zget_nat _ _ NL). cbn [obind]. change (zget (d_env s1) (0 + 2 + 1)) with (zget (d_env s1) (Z.of_nat (0 + 3))). rewrite (zget_nat _ _ NR). cbn [obind].
      rewrite EB. cbn [obind]. change (zset [b; b'] 0 c) with (Ok [c; b']). cbn [rbind]. change (zset [c; b'] (0 + 1) c') with (Ok [c; c']). cbn [rbind]. intros EU. injection EU as EU.
      assert (QB : forall A B (x : result A) (f : A -> result B) v, rbind x f = Ok v -> exists z, x = Ok z /\ f z = Ok v) by (intros A B' [z| |] f v Q; try discriminate; eauto).
      apply QB in EU as (env' & _ & EU). injection EU as <- <-. cbn [d_sites]. exists c, c'. split; [reflexivity|]. split; [exact Sc|]. split; [exact Sc'|]. split; [exact UC|]. intros _. exists l1, Et. auto.
  Qed.
  Notation reach := (reached slack eps dsvd wt thr 1 1 undef hs ch 0).
  Lemma reach_state k s Es : reach k s Es -> state k s Es.
  Proof.
    intros (env & hs2 & st & E1 & E2 & U). destruct (start_ok (N := N) (W := W) crit dsvd wt undef Hslack (@bell_thin N) (@bell_val N) (hs := hs) (sites := ch) (x := 1) (o := 1) (x' := 1) (o' := 1) (oc := 0) 1 ltac:(cbn; lia) ltac:(cbn; lia) bfit bofit (@bell_herm N) bcanonical) as (env' & hs2' & E1' & E2' & I). rewrite E1 in E1'. injection E1' as <-. rewrite E2 in E2'. injection E2' as <-.
    eapply states; [exact E2|exact I|exact U].
  Qed.
  Lemma reach_pos k s Es p : reach k s Es -> d_oc s = Z.of_nat p -> p = 0.
  Proof. intros R E. destruct (reach_state R) as ((Q & _) & _). lia. Qed.
  Lemma row_iso M : dsh M = [1; 2] -> radd (rmul (dv M [0; 0]) (rconj (dv M [0; 0]))) (rmul (dv M [0; 1]) (rconj (dv M [0; 1]))) = ro -> isometries M (dsvd M).
  Proof.
    intros S H. unfold ex_bell. rewrite S. cbn [leqb andb]. cbv beta iota delta [Nat.eqb andb]. unfold one_sided. rewrite S. cbn [nth Nat.leb fst snd]. intros m n E. rewrite S in E. injection E as <- <-. change (Nat.min 1 2) with 1.
    split; intros c c' Hc Hc'; assert (c = 0) by lia; assert (c' = 0) by lia; subst; cbn; cbv beta iota delta [Nat.eqb]; [rewrite conj1; ring|rewrite !rconj_conj, <- H; ring].
  Qed.
  Lemma reach_move k s Es A Mx : reach k s Es -> nth_error (d_sites s) 1 = Some A -> cut_matrix 1 A Mx -> isometries Mx (dsvd Mx).
  Proof.
    intros R NA CM. destruct (reach_state R) as (_ & (_ & G) & b & b' & D & Sb & Sb' & _). rewrite D in NA, G. injection NA as <-. inversion G as [|? ? G1 _]. subst. destruct CM as [SM VM]. rewrite Sb' in SM, VM. cbn in SM. apply row_iso; [exact SM|].
    pose proof (VM [0] [0; 0] eq_refl eq_refl) as V0. pose proof (VM [0] [1; 0] eq_refl eq_refl) as V1. cbn in V0, V1. rewrite V0, V1.
    unfold right_isometry, size in G1. rewrite Sb' in G1. cbn [nth] in G1. specialize (G1 0 0 ltac:(lia) ltac:(lia)). cbn [seq] in G1. rewrite !sumf_cons, !sumf_nil in G1. change (0 =? 0) with true in G1. cbv iota in G1. rewrite <- G1. ring.
  Qed.
  Lemma reach_free k s Es : reach k s Es -> ~ stuck_at hs l l (d_sites s) 0.
  Proof.
    intros R (pre & a & a' & post & hpre & h & h' & hpost & AP & K). destruct (reach_state R) as (_ & _ & b & b' & D & Sb & Sb' & UP & _). rewrite D in AP. apply at_bell in AP as (-> & -> & -> & -> & -> & -> & -> & ->).
    unfold size in K. rewrite Sb, Sb' in K. cbn [nth] in K. revert K. apply improvable_free with eps; auto; [apply up_unit, UP|].
    apply improvable_ext with (M' := @MXX N) (v' := pair_amp b b'); [exact (@bell_local N)|reflexivity|apply up_improvable; [exact O2|exact UP]].
  Qed.
  Hypothesis Hiter : 1 <= max_iter.
  Theorem bell_run : exists E sites' c, t_dmrg slack eps e_init crit dsvd wt thr 1 1 undef max_iter hs ch 0 = Some (Ok (E, sites', c)) /\ dv E [] = ropp ro /\ chain_energy hs l l sites' = rz /\ chain_norm sites' 1 1 = ro.
  Proof.
    assert (HG : forall k s Es p, k < max_iter * sweep_size (length ch) -> reach k s Es -> d_oc s = Z.of_nat p -> svd_right dsvd eps hs l l (d_sites s) p /\ forall b, bond_max (d_sites s) p b -> (Z.of_nat b <= 2 ^ 63)%Z).
    { intros k s Es p _ R Ep. rewrite (reach_pos _ R Ep). destruct (reach_state R) as (_ & _ & b & b' & D & Sb & Sb' & UP & _). rewrite D. exact (bell_good Sb Sb' UP). }
    assert (HM : forall k s Es A Mx, k <= max_iter * sweep_size (length ch) -> reach k s Es -> d_oc s = 0%Z -> nth_error (d_sites s) 1 = Some A -> cut_matrix 1 A Mx -> isometries Mx (dsvd Mx)) by (intros k s Es A Mx _ R _; exact (reach_move R)).
    destruct (@run_returns N W slack eps e_init crit dsvd wt thr 1 1 undef Hslack (@bell_thin N) (@bell_val N) B hs ch 1 1 1 1 0 max_iter ltac:(cbn; lia) ltac:(cbn; lia) bfit bofit (@bell_herm N) Hiter bcanonical P Z O (@ex_norm N) HG HM) as (E & sites' & c & RUN).
    { intros k s Es p _ R Ep. rewrite (reach_pos _ R Ep). exact (reach_free R). }
    exists E, sites', c. split; [exact RUN|]. revert RUN.
    destruct (start_ok (N := N) (W := W) crit dsvd wt undef Hslack (@bell_thin N) (@bell_val N) (hs := hs) (sites := ch) (x := 1) (o := 1) (x' := 1) (o' := 1) (oc := 0) 1 ltac:(cbn; lia) ltac:(cbn; lia) bfit bofit (@bell_herm N) bcanonical) as (env & hs2 & E1 & E2 & I).
    unfold t_dmrg. rewrite E1. cbn [obind]. rewrite E2. cbn [obind]. unfold t_dmrg_impl. rewrite (@norm_ok N W slack crit dsvd wt undef Hslack (@bell_thin N) (@bell_val N) hs ch 1 1 1 1 0 ltac:(cbn; lia) ltac:(cbn; lia) bfit bofit). cbn [obind].
    destruct (reqb _ rz || _); [discriminate|]. destruct (sweeps _ _ _ _ _ _ _ _ _ _ _ _) as [[[E' s]| |]|] eqn:SW; cbn [obind]; try discriminate.
    apply sweeps_inv in SW as (j & st & Es & Hj & Hj1 & U & EE). specialize (Hj1 Hiter). assert (R : reach (j * sweep_size (length hs)) s Es) by (exists env, hs2, st; auto).
    assert (HN : chain_norm ch 1 1 <> rz) by (rewrite ex_norm; apply n_one).
    destruct (@finish N W slack eps crit dsvd wt thr 1 1 undef Hslack (@bell_thin N) (@bell_val N) B hs ch 1 1 1 1 0 max_iter ltac:(cbn; lia) ltac:(cbn; lia) bfit bofit (@bell_herm N) HG HM Hiter j s Es E' Hj Hj1 R HN) as (s' & EF & _ & _ & NN & _ & EN). cbv zeta in EF |- *. rewrite EF. intros [= <- <- <-].
    destruct (reach_state R) as (_ & _ & b & b' & D & Sb & Sb' & UP & K). destruct K as (Es' & Ee & QE & VE); [change (sweep_size (length hs)) with 2; lia|].
    split; [rewrite EE, QE, last_last; exact VE|]. split; [|exact NN]. transitivity (chain_energy hs l l (d_sites s)); [exact EN|]. rewrite D. unfold chain_energy. rewrite (@bell_energy N b b' Sb Sb'). apply up_zero, UP.
  Qed.
  Lemma reach_right k s Es p : reach k s Es -> d_oc s = Z.of_nat p -> svd_right dsvd eps hs l l (d_sites s) p /\ improvable_at eps hs l l (d_sites s) p.
  Proof.
    intros R Ep. rewrite (reach_pos _ R Ep). destruct (reach_state R) as (_ & _ & b & b' & D & Sb & Sb' & UP & _). rewrite D. split; [exact (proj1 (bell_good Sb Sb' UP))|].
    intros pre a a' post hpre h h' hpost AP. apply at_bell in AP as (-> & -> & -> & -> & -> & -> & -> & ->). unfold size. rewrite Sb, Sb'. cbn [nth].
    apply improvable_ext with (M' := @MXX N) (v' := pair_amp b b'); [exact (@bell_local N)|reflexivity|apply up_improvable; [exact O2|exact UP]].
  Qed.
  Theorem bell_all : exists hs sites, let l := @d_full N [1; 1; 1] ro in mps_fit (@dsh N) (fun k => k) sites 1 1 /\ mpo_fit (@dsh N) (fun k => k) hs sites sites 1 1 /\ canonical sites 0 /\
    hermitian_chain hs l l (map (size 1) sites) /\ chain_norm sites 1 1 = ro /\
    (forall k s Es p, reached slack eps dsvd wt thr 1 1 undef hs sites 0 k s Es -> d_oc s = Z.of_nat p -> svd_right dsvd eps hs l l (d_sites s) p /\ improvable_at eps hs l l (d_sites s) p) /\
    exists E sites' c, t_dmrg slack eps e_init crit dsvd wt thr 1 1 undef max_iter hs sites 0 = Some (Ok (E, sites', c)) /\
      dv E [] = ropp ro /\ chain_energy hs l l sites' = rz /\ chain_norm sites' 1 1 = ro.
  Proof.
    exists hs, ch. cbv zeta. split; [exact bfit|]. split; [exact bofit|]. split; [exact bcanonical|]. split; [exact (@bell_herm N)|]. split; [exact (@ex_norm N)|]. split; [exact reach_right|exact bell_run].
  Qed.
End Run.
Lemma minus_one_nz (N : numeric) : ropp ro <> (rz : N).
Proof. intros Q. pose proof (minus_one N) as M. rewrite Q in M. pose proof (@le_refl N rz) as L. unfold le in L. congruence. Qed.
