(** The start and the end of a run of DMRG on dense tensors, and the run as a whole. *)
From Verif Require Import Base Ring Index SpecIndex Dense IndexProofs BTensor BTensorArith Bcast Tensordot SpecTensordot Chain SpecChain ChainProofs ChainThms ChainInst ChainEnd
  SpecMove SpecSvd SvdDense MoveOc MoveProofs MoveInst Truncate SpecTruncate TruncateProofs BSvd BTrunc Num Lanczos SpecLanczos LanczosVec LanczosProofs SiteUpdate SpecSiteUpdate ChainNorm ChainEnergy SiteUpdateProofs SiteUpdateThms
  View SpecView Edges SpecEdges EdgesProofs MoveEx Dmrg DmrgProofs DmrgRun SpecDmrgRun DmrgRunProofs DmrgRunThms DmrgFree DmrgFreeThms.
Set Implicit Arguments.

(** * Where a run starts and where it ends *)
Lemma start_phase L oc : 2 <= L -> oc < L -> exists ph, at_phase (L - 1) ph (start_pos L oc) (start_step L oc).
Proof.
  intros HL Ho. unfold start_pos, start_step. destruct (Nat.eqb_spec (L - 1) 1) as [D|D].
  - exists 0. left. destruct (Nat.eqb_spec oc (L - 1)); repeat split; lia.
  - assert (2 <= L - 1) by lia. destruct (Nat.eqb_spec oc 0) as [-> | Z].
    + exists 0. right. destruct (Nat.eqb_spec 0 (L - 1)); [lia|]. unfold pos, dir. destruct (Nat.leb_spec 0 (L - 1 - 1)), (Nat.ltb_spec 0 (L - 1 - 1)); repeat split; lia.
    + destruct (Nat.eqb_spec oc (L - 1)) as [-> | Y].
      * exists (L - 1 - 1). right. unfold pos, dir. rewrite Nat.leb_refl, Nat.ltb_irrefl. repeat split; lia.
      * exists (2 * (L - 1 - 1) - oc). right. unfold pos, dir. destruct (Nat.leb_spec (2 * (L - 1 - 1) - oc) (L - 1 - 1)), (Nat.ltb_spec (2 * (L - 1 - 1) - oc) (L - 1 - 1)); repeat split; lia.
Qed.
Lemma centre_prev M ph1 p1 st1 p st : at_phase M ph1 p1 st1 -> at_phase M (nx M ph1) p st -> (p <> 0 -> st = (-1)%Z) ->
  centre_after p1 st1 = if p =? 0 then (if M =? 1 then 0 else 1) else if p =? M - 1 then p else p + 1.
Proof.
  intros [(-> & -> & -> & ->) | (HM & Hp & -> & ->)] [(? & ? & -> & ->) | (HM' & Hp' & -> & ->)] HS; try lia; try reflexivity.
  unfold nx in *. destruct (Nat.eqb_spec M 1); [lia|]. revert HS. unfold centre_after, pos, dir, nxt in *.
  destruct (Nat.eqb_spec (ph1 + 1) (2 * (M - 1))), (Nat.ltb_spec ph1 (M - 1)), (Nat.leb_spec ph1 (M - 1));
    repeat (match goal with |- context [?x <=? ?y] => destruct (Nat.leb_spec x y) | |- context [?x <? ?y] => destruct (Nat.ltb_spec x y) | |- context [?x =? ?y] => destruct (Nat.eqb_spec x y) end); cbn [Z.eqb]; try lia;
    intros HS; cbn; try lia; try (exfalso; discriminate (HS ltac:(lia))).
Qed.

Section F.
  Context {N : numeric}.
  Add Ring Rr : (ring_th N).
  Notation t := (dense N).
  Notation idk := (fun k : nat => k).
  Notation fit := (mps_fit (@dsh N) idk).
  Notation ofit := (mpo_fit (@dsh N) idk).
  Notation sizes := (map (@size N 1)).
  Notation lstep := (compute_left_env t_tdot t_conj).
  Notation rstep := (compute_right_env t_tdot t_conj).

  Lemma ofit_cut : forall (h a b : list t) u w n, ofit h a b u w -> exists v, ofit (firstn n h) (firstn n a) (firstn n b) u v /\ ofit (skipn n h) (skipn n a) (skipn n b) v w.
  Proof.
    induction h as [|h0 h IH]; intros [|a0 a] [|b0 b] u w n F; try destruct F.
    - exists u. rewrite !firstn_nil, !skipn_nil. split; [reflexivity|exact eq_refl].
    - destruct H as (p & p' & E1 & E2 & E3 & F). destruct n as [|n]; cbn [firstn skipn]; [exists u; split; [reflexivity|]; exists x, p, p'; auto|].
      destruct (IH a b x w n F) as (v & F1 & F2). exists v. split; [exists x, p, p'; auto|exact F2].
  Qed.
  Lemma fit_cut : forall (a : list t) u w n, fit a u w -> exists v, fit (firstn n a) u v /\ fit (skipn n a) v w.
  Proof. intros a u w n F. rewrite <- (firstn_skipn n a) in F. apply mps_fit_app in F. exact F. Qed.

  Lemma gauge_canonical c (a : list t) : gauge c a -> canonical a c.
  Proof.
    intros (GL & GR). rewrite Forall_forall in GL, GR. split.
    - intros j A Hj NA. apply GL. clear GL GR. revert c j Hj NA. induction a as [|a0 a IH]; intros [|c] [|j] Hj NA; try discriminate; try lia; cbn in *; [injection NA as ->; auto|]. right. apply IH with j; [lia|exact NA].
    - intros j A Hj NA. apply GR. clear GL GR. apply nth_error_In with (j - (c + 1)). rewrite <- NA. replace j with (c + 1 + (j - (c + 1))) at 2 by lia. generalize (j - (c + 1)). generalize (c + 1). clear. intros n k. revert n. induction a as [|a0 a IH]; intros [|n]; cbn; auto. destruct k; reflexivity.
  Qed.
  Lemma canonical_gauge c (a : list t) : canonical a c -> Forall (@left_isometry N) (firstn c a) /\ Forall (@right_isometry N) (skipn (c + 1) a).
  Proof.
    intros (GL & GR). split; apply Forall_forall; intros A HA; apply In_nth_error in HA as (j & NA).
    - assert (Hj : j < c). { assert (j < length (firstn c a)) by (apply nth_error_Some; congruence). rewrite firstn_length in *. lia. }
      apply GL with j; [lia|]. clear GL GR. revert c j Hj NA. induction a as [|a0 a IH]; intros [|c] [|j] Hj NA; try discriminate; try lia; cbn in *; [exact NA|]. apply IH with c; [lia|exact NA].
    - assert (NJ : nth_error a (c + 1 + j) = Some A). { rewrite <- NA. generalize (c + 1). clear. intros n. revert n. induction a as [|a0 a IH]; intros [|n]; cbn; auto. destruct j; reflexivity. }
      apply GR with (c + 1 + j); [|exact NJ]. assert (c + 1 + j < length a) by (apply nth_error_Some; congruence). lia.
  Qed.
  (** * Environments at the start *)
  Variables (hs sites : list t) (l e : t) (x o x' o' : nat).
  Hypothesis Sl : dsh l = [x; o; x].
  Hypothesis Se : dsh e = [x'; o'; x'].
  Hypothesis Fs : fit sites x x'.
  Hypothesis Os : ofit hs sites sites o o'.
  Notation L := (length hs).
  Definition left_at (env : list t) (i : nat) : Prop := exists E, nth_error env i = Some E /\ left_envs t_tdot t_conj (firstn i hs) (firstn i sites) l = Ok E.
  Definition right_at (env : list t) (i : nat) : Prop := exists E, nth_error env (i + 1) = Some E /\ right_envs t_tdot t_conj (skipn i hs) (skipn i sites) e = Ok E.
  Lemma len_sites : length sites = L.
  Proof. symmetry. eapply ofit_len; eauto. Qed.
  Lemma left_ex i : exists E, left_envs t_tdot t_conj (firstn i hs) (firstn i sites) l = Ok E.
  Proof. destruct (@fit_cut sites x x' i Fs) as (v & F & _). destruct (@ofit_cut hs sites sites o o' i Os) as (w & O & _). destruct (@d_left_envs N _ _ l x o v w Sl F O) as (E & H & _). eauto. Qed.
  Lemma right_ex i : exists E, right_envs t_tdot t_conj (skipn i hs) (skipn i sites) e = Ok E.
  Proof. destruct (@fit_cut sites x x' i Fs) as (v & _ & F). destruct (@ofit_cut hs sites sites o o' i Os) as (w & _ & O). destruct (@d_right_envs N _ _ e v w x' o' Se F O) as (E & H & _). eauto. Qed.
  Lemma fill_left_ok : forall k i env, length env = L + 2 -> i + k <= L -> (forall j, j <= i -> left_at env j) ->
    exists env', fill_left lstep hs k i sites env = Ok env' /\ length env' = L + 2 /\ (forall j, j <= i + k -> left_at env' j) /\ forall j, i + k < j -> nth_error env' j = nth_error env j.
  Proof.
    induction k as [|k IH]; intros i env HL Hi HE; cbn [fill_left].
    - exists env. rewrite Nat.add_0_r. auto.
    - pose proof len_sites as LS. destruct (@nth_error_ex _ hs i) as [h Nh]; [lia|]. destruct (@nth_error_ex _ sites i) as [a Na]; [lia|]. destruct (HE i (le_n i)) as (E & NE & WE). unfold rnth. rewrite Nh, Na, NE. cbn [rbind].
      destruct (left_ex (S i)) as (E' & WE'). pose proof WE' as W2. rewrite (firstn_S_nth _ _ Nh), (firstn_S_nth _ _ Na), left_envs_snoc, WE in W2 by (rewrite !firstn_length; lia). cbn [rbind] in W2. rewrite W2. cbn [rbind].
      replace (Z.of_nat i + 1)%Z with (Z.of_nat (S i)) by lia. rewrite zset_nat by lia. cbn [rbind].
      destruct (IH (S i) (upd env (S i) E')) as (env' & E1 & L1 & A1 & B1); [rewrite upd_length; lia|lia| |].
      + intros j Hj. unfold left_at. rewrite nth_error_upd by lia. destruct (Nat.eqb_spec j (S i)) as [-> |]; [eauto|apply HE; lia].
      + exists env'. split; [exact E1|]. split; [exact L1|]. split; [intros j Hj; apply A1; lia|]. intros j Hj. rewrite B1 by lia. rewrite nth_error_upd by lia. destruct (Nat.eqb_spec j (S i)); [lia|reflexivity].
  Qed.
  Lemma fill_right_ok : forall k i env, length env = L + 2 -> k <= i + 1 -> i < L -> (forall j, i + 1 <= j <= L -> right_at env j) ->
    exists env', fill_right rstep hs k i sites env = Ok env' /\ length env' = L + 2 /\ (forall j, i + 1 - k <= j <= L -> right_at env' j) /\ forall j, j + k < i + 2 -> nth_error env' j = nth_error env j.
  Proof.
    induction k as [|k IH]; intros i env HL Hi HiL HE; cbn [fill_right].
    - exists env. rewrite Nat.sub_0_r. auto.
    - pose proof len_sites as LS. destruct (@nth_error_ex _ hs i) as [h Nh]; [lia|]. destruct (@nth_error_ex _ sites i) as [a Na]; [lia|]. destruct (HE (i + 1)) as (E & NE & WE); [lia|]. replace (i + 1 + 1) with (i + 2) in NE by lia. unfold rnth. rewrite Nh, Na, NE. cbn [rbind].
      destruct (right_ex i) as (E' & WE'). pose proof WE' as W2. rewrite (skipn_nth _ _ Nh), (skipn_nth _ _ Na) in W2. cbn [right_envs] in W2. replace (S i) with (i + 1) in W2 by lia. rewrite WE in W2. cbn [rbind] in W2. rewrite W2. cbn [rbind].
      replace (Z.of_nat i + 1)%Z with (Z.of_nat (i + 1)) by lia. rewrite zset_nat by lia. cbn [rbind].
      destruct k as [|k].
      { exists (upd env (i + 1) E'). split; [reflexivity|]. split; [rewrite upd_length; lia|]. split.
        - intros j Hj. unfold right_at. rewrite nth_error_upd by lia. destruct (Nat.eqb_spec (j + 1) (i + 1)); [replace j with i by lia; eauto|apply HE; lia].
        - intros j Hj. rewrite nth_error_upd by lia. destruct (Nat.eqb_spec j (i + 1)); [lia|reflexivity]. }
      destruct (IH (i - 1) (upd env (i + 1) E')) as (env' & E1 & L1 & A1 & B1); [rewrite upd_length; lia|lia|lia| |].
      + intros j Hj. unfold right_at. rewrite nth_error_upd by lia. destruct (Nat.eqb_spec (j + 1) (i + 1)) as [D|D]; [replace j with i by lia; eauto|apply HE; lia].
      + exists env'. split; [exact E1|]. split; [exact L1|]. split; [intros j Hj; apply A1; lia|]. intros j Hj. rewrite B1 by lia. rewrite nth_error_upd by lia. destruct (Nat.eqb_spec j (i + 1)); [lia|reflexivity].
  Qed.
  Lemma gen_env_ok undef oc : 1 <= L -> oc < L -> exists env, gen_env lstep rstep hs undef sites oc l e = Ok env /\ length env = L + 2 /\ (forall j, j <= oc -> left_at env j) /\ forall j, oc + 1 <= j <= L -> right_at env j.
  Proof.
    intros HL Ho. pose proof len_sites as LS. unfold gen_env. set (env0 := upd (upd (repeat undef (L + 2)) 0 l) (L + 1) e).
    assert (Lr : length (upd (repeat undef (L + 2)) 0 l) = L + 2) by (rewrite upd_length; rewrite repeat_length; lia).
    assert (L0 : length env0 = L + 2) by (unfold env0; rewrite upd_length; lia).
    assert (N0 : nth_error env0 0 = Some l) by (unfold env0; rewrite nth_error_upd by lia; destruct (Nat.eqb_spec 0 (L + 1)); [lia|]; rewrite nth_error_upd by (rewrite repeat_length; lia); reflexivity).
    assert (N1 : nth_error env0 (L + 1) = Some e) by (unfold env0; rewrite nth_error_upd, Nat.eqb_refl by lia; reflexivity).
    destruct (@fill_left_ok oc 0 env0 L0) as (env1 & E1 & L1 & A1 & B1); [lia| |]. { intros j Hj. assert (j = 0) by lia. subst j. exists l. split; [exact N0|reflexivity]. }
    rewrite E1. cbn [rbind]. destruct (@fill_right_ok (L - 1 - oc) (L - 1) env1 L1) as (env2 & E2 & L2 & A2 & B2); [lia|lia| |].
    { intros j Hj. assert (j = L) by lia. subst j. exists e. rewrite B1 by lia. split; [exact N1|]. rewrite !skipn_all2 by lia. reflexivity. }
    exists env2. split; [exact E2|]. split; [exact L2|]. split.
    - intros j Hj. destruct (A1 j Hj) as (E & NE & WE). exists E. rewrite B2 by lia. auto.
    - intros j Hj. apply A2. lia.
  Qed.
  Lemma env_edge slack (A H : t) ds dh u w : 0 < slack -> length (dsh A) = 3 -> length (dsh H) = 4 -> (ds = 0 \/ ds = 2) -> (dh = 0 \/ dh = 2) -> nth ds (dsh A) 0 = u -> nth dh (dsh H) 0 = w ->
    d_env_edge slack A H ds dh = Ok (d_full [u; w; u] ro).
  Proof.
    intros HS LA LH Hd Hh <- <-. unfold d_env_edge, d_edge_shape_prep. destruct (dsh A) as [|a0 [|a1 [|a2 [|]]]]; try discriminate. destruct (dsh H) as [|h0 [|h1 [|h2 [|h3 [|]]]]]; try discriminate.
    assert (T : forall n, ts_shape_from slack [n] [0%Z] = Ok []) by (intros n; reflexivity).
    assert (PA : ts_shape_from slack [a0; a1; a2] (upd (repeat 0%Z 3) ds (-1)%Z) = Ok [nth ds [a0; a1; a2] 0]).
    { destruct Hd as [-> | ->].
      - change (upd (repeat 0%Z 3) 0 (-1)%Z) with (zpat [None; Some 0; Some 0]). rewrite ts_ok by auto. reflexivity.
      - change (upd (repeat 0%Z 3) 2 (-1)%Z) with (zpat [Some 0; Some 0; None]). rewrite ts_ok by auto. reflexivity. }
    assert (PH : ts_shape_from slack [h0; h1; h2; h3] (upd (repeat 0%Z 4) dh (-1)%Z) = Ok [nth dh [h0; h1; h2; h3] 0]).
    { destruct Hh as [-> | ->].
      - change (upd (repeat 0%Z 4) 0 (-1)%Z) with (zpat [None; Some 0; Some 0; Some 0]). rewrite ts_ok by auto. reflexivity.
      - change (upd (repeat 0%Z 4) 2 (-1)%Z) with (zpat [Some 0; Some 0; None; Some 0]). rewrite ts_ok by auto. reflexivity. }
    assert (R1 : rnth [a0; a1; a2] ds = Ok (nth ds [a0; a1; a2] 0)) by (destruct Hd as [-> | ->]; reflexivity).
    assert (R2 : rnth [h0; h1; h2; h3] dh = Ok (nth dh [h0; h1; h2; h3] 0)) by (destruct Hh as [-> | ->]; reflexivity).
    cbn [length]. rewrite R1, R2. cbn [rbind]. rewrite PA, PH. cbn [rbind]. rewrite !T. reflexivity.
  Qed.

  (** * Norm and energy depend on the state only *)
  Lemma same_norm (a b : list t) u w : same_state a b u w -> chain_norm b u w = chain_norm a u w.
  Proof.
    intros (S & H). unfold chain_norm, configs. rewrite S. apply sumf_ext. intros i Hi. apply sumf_ext. intros j Hj. apply sumf_ext. intros c Hc. apply in_seq in Hi, Hj. apply idxs_In in Hc. rewrite !H by (assumption || lia). reflexivity.
  Qed.
  Lemma same_energy (a b : list t) : same_state a b x x' -> chain_energy hs l e b = chain_energy hs l e a.
  Proof.
    intros (S & H). unfold chain_energy, expectation, element, configs. rewrite S. assert (Ql : forall k, size k l = nth k [x; o; x] 0) by (intros k; unfold size; rewrite Sl; reflexivity). assert (Qe : forall k, size k e = nth k [x'; o'; x'] 0) by (intros k; unfold size; rewrite Se; reflexivity). rewrite !Ql, !Qe. cbn [nth].
    apply sumf_ext. intros i0 H0. apply sumf_ext. intros i1 _. apply sumf_ext. intros i2 H2. apply sumf_ext. intros j0 H3. apply sumf_ext. intros j1 _. apply sumf_ext. intros j2 H5. apply in_seq in H0, H2, H3, H5. f_equal. f_equal.
    apply sumf_ext. intros c Hc. apply sumf_ext. intros c' Hc'. apply idxs_In in Hc, Hc'. rewrite !H by (assumption || lia). reflexivity.
  Qed.
  Lemma norm_value slack : 0 < slack -> sites <> [] -> exists n, d_contract_default slack sites sites = Ok n /\ dsh n = [] /\ dv n [] = chain_norm sites x x'.
  Proof.
    intros HS HN. destruct (@d_default N slack HS sites sites x x x' x' HN Fs Fs) as (n & E & S & V). { clear. induction sites; cbn; auto. }
    exists n. split; [exact E|]. split; [exact S|]. rewrite V, !Nat.min_id. unfold closed_overlap, chain_norm, overlap. apply sumf_ext. intros i _. apply sumf_ext. intros j _. apply sumf_ext. intros c _. ring.
  Qed.
End F.

Section Main.
  Context {N : numeric} {W : weights}.
  Notation t := (dense N).
  Notation idk := (fun k : nat => k).
  Notation fit := (mps_fit (@dsh N) idk).
  Notation ofit := (mpo_fit (@dsh N) idk).
  Notation sizes := (map (@size N 1)).
  Variable slack : nat.
  Variables eps e_init crit : N.
  Variable dsvd : t -> t * t * t.
  Variable wt : N -> W.
  Variable thr : W.
  Variables mn mx : Z.
  Variable undef : t.
  Hypothesis Hslack : 0 < slack.
  Hypothesis H_thin : forall M, (exists m n, dsh M = [m; n]) -> thin M (dsvd M) /\ real_entries (snd (fst (dsvd M))).
  Hypothesis H_val : forall M, (exists m n, dsh M = [m; n]) -> descending (snd (fst (dsvd M))).
  Hypothesis Hmn : (1 <= mn <= mx)%Z.
  Variables (hs sites : list t) (x o x' o' oc max_iter : nat).
  Notation L := (length hs).
  Notation l := (@d_full N [x; o; x] ro).
  Notation e := (@d_full N [x'; o'; x'] ro).
  Hypothesis HL : 2 <= L.
  Hypothesis Ho : oc < L.
  Hypothesis Fs : fit sites x x'.
  Hypothesis Os : ofit hs sites sites o o'.
  Hypothesis HC : hermitian_chain hs l e (sizes sites).
  Notation p0 := (start_pos (length sites) oc).
  Notation reach := (reached slack eps dsvd wt thr mn mx undef hs sites oc).
  Notation run := (t_dmrg slack eps e_init crit dsvd wt thr mn mx undef max_iter hs sites oc).
  Notation total := (max_iter * sweep_size (length sites)).

  Lemma start_base : exists env hs2, t_generate_env slack undef hs sites oc = Ok env /\ compute_2sites_hamil t_tdot t_perm hs = Ok hs2 /\ base hs l e x o x' o' (sizes sites) p0 (mkDst sites env (Z.of_nat p0)).
  Proof.
    pose proof (@len_sites N hs sites o o' Os) as LS.
    assert (SN : sites <> []) by (intros ->; cbn in LS; lia). assert (HN : hs <> []) by (intros Q; rewrite Q in HL; cbn in HL; lia).
    destruct (@gen_env_ok N hs sites l e x o x' o' eq_refl eq_refl Fs Os undef oc ltac:(lia) Ho) as (env & EE & LE & AL & AR).
    assert (H2 : exists hs2, compute_2sites_hamil t_tdot t_perm hs = Ok hs2).
    { assert (OC : forall h a b u w, ofit h a b u w -> op_chain (@dsh N) idk h u w).
      { clear. induction h as [|h0 h IH]; intros [|a0 a] [|b0 b] u w F; try destruct F; [exact eq_refl|]. destruct H as (p & p' & E & _ & _ & F). exists p', x, p. split; [exact E|]. eapply IH, F. }
      pose proof (OC _ _ _ _ _ Os) as Oc. clear OC. destruct hs as [|h0 h]; [congruence|]. destruct (@d_two_sites N h0 h o o' Oc) as (r & Er & _). eauto. }
    destruct H2 as (hs2 & H2). exists env, hs2. split; [|split; [exact H2|]].
    - unfold t_generate_env. destruct sites as [|a0 a] eqn:Q1; [congruence|]. destruct hs as [|h0 h] eqn:Q2; [congruence|]. rewrite <- Q1, <- Q2 in *.
      assert (F0 := Fs). assert (O0 := Os). rewrite Q1 in F0 at 1. rewrite Q2, Q1 in O0. apply fit_front in F0 as (s & k & S0). apply op_front in O0 as (p & k0 & q & T0).
      destruct (@fit_back _ _ (@dsh N) idk sites x x' SN Fs) as (a1 & k1 & s1 & B1 & _ & S1). destruct (@op_back _ _ (@dsh N) idk hs sites sites o o' HN Os) as (h1 & k2 & p2 & s2 & B2 & _ & S2).
      replace (front sites) with (Ok a0) by (rewrite Q1; reflexivity). replace (front hs) with (Ok h0) by (rewrite Q2; reflexivity). cbn [rbind].
      rewrite (@env_edge N slack a0 h0 0 0 x o Hslack) by (auto || (rewrite S0; reflexivity) || (rewrite T0; reflexivity)). cbn [rbind]. rewrite B1. cbn [rbind]. rewrite B2. cbn [rbind].
      rewrite (@env_edge N slack a1 h1 2 2 x' o' Hslack) by (auto || (rewrite S1; reflexivity) || (rewrite S2; reflexivity)). cbn [rbind]. exact EE.
    - assert (Hp : p0 + 2 <= L /\ p0 <= oc /\ oc <= p0 + 1) by (unfold start_pos; rewrite LS; destruct (Nat.eqb_spec oc (L - 1)); lia). destruct Hp as (P1 & P2 & P3).
      split; [reflexivity|]. split; [exact P1|]. cbn [d_sites d_env]. split; [exact Fs|]. split; [exact Os|]. split; [reflexivity|]. split; [exact LE|]. split; [intros i Hi; apply AL; lia|]. intros i Hi. apply AR. lia.
  Qed.

  Lemma norm_ok : rbind (d_contract_default slack sites sites) (fun n => t_item n) = Ok (chain_norm sites x x').
  Proof.
    assert (SN : sites <> []) by (intros Q; pose proof (@len_sites N hs sites o o' Os) as LS; rewrite Q in LS; cbn in LS; lia).
    destruct (@norm_value N sites x x' Fs slack Hslack SN) as (n & E & S & V). rewrite E. cbn [rbind]. unfold t_item. rewrite S. cbn. rewrite V. reflexivity.
  Qed.
  (** Without any iteration the energy returned is the initial value. *)
  Lemma run_nothing : le N eps ro -> chain_norm sites x x' = ro -> exists sites' c, t_dmrg slack eps e_init crit dsvd wt thr mn mx undef 0 hs sites oc = Some (Ok (mkD [] (fun _ => e_init), sites', c)) /\
    chain_energy hs l e sites' = chain_energy hs l e sites.
  Proof.
    intros Oeps N1. pose proof (@len_sites N hs sites o o' Os) as LS. destruct start_base as (env & hs2 & E1 & E2 & I). unfold t_dmrg. rewrite E1. cbn [obind]. rewrite E2. cbn [obind]. unfold t_dmrg_impl. rewrite norm_ok, N1. cbn [obind sweeps d_oc d_sites].
    destruct (reqb ro rz) eqn:Q; [exfalso; apply reqb_spec in Q; exact (n_one N Q)|]. unfold le in Oeps. rewrite Oeps. cbn [orb negb]. rewrite Z.eqb_refl. cbn [negb andb].
    destruct (Z.eqb_spec (Z.of_nat p0) 0) as [Z0|Z0].
    - assert (P0 : p0 = 0) by lia. rewrite P0. cbn [Z.of_nat Z.add Z.eqb]. destruct (@mps_move_dense N dsvd sites x x' 1 0 H_thin Fs ltac:(lia) ltac:(lia)) as (s' & E3 & F3 & L3 & S3 & _). cbn [Z.of_nat Pos.of_succ_nat] in E3. rewrite E3. cbn [rbind fst snd].
      exists s', 0%Z. split; [reflexivity|]. apply (@same_energy N hs l e x o x' o' eq_refl eq_refl _ _ S3).
    - rewrite Z.add_0_r, Z.eqb_refl. exists sites, (Z.of_nat p0). split; reflexivity.
  Qed.
  Hypothesis Hgood : forall k s Es p, k < total -> reach k s Es -> d_oc s = Z.of_nat p ->
    svd_right dsvd eps hs l e (d_sites s) p /\ forall b, bond_max (d_sites s) p b -> (Z.of_nat b <= 2 ^ 63)%Z.
  Hypothesis Hmove : forall k s Es A Mx, k <= total -> reach k s Es -> d_oc s = 0%Z -> nth_error (d_sites s) 1 = Some A -> cut_matrix 1 A Mx -> isometries Mx (dsvd Mx).
  Hypothesis Hiter : 1 <= max_iter.

  Lemma good_reached env hs2 : t_generate_env slack undef hs sites oc = Ok env -> compute_2sites_hamil t_tdot t_perm hs = Ok hs2 ->
    forall m s st Es p, m < total -> t_updates eps dsvd wt thr mn mx hs hs2 m (mkDst sites env (Z.of_nat p0)) (start_step (length sites) oc) (Z.of_nat L - 2) = Some (Ok (s, st, Es)) ->
    d_oc s = Z.of_nat p -> good eps dsvd hs l e p (d_sites s).
  Proof. intros E1 E2 m s st Es p Hm U. apply (@Hgood m s Es p Hm). exists env, hs2, st. split; [exact E1|]. split; [exact E2|]. rewrite <- U. rewrite (@len_sites N hs sites o o' Os). reflexivity. Qed.
  Lemma sweep_pos : 1 <= sweep_size L.
  Proof. unfold sweep_size. destruct (Nat.eqb_spec (L - 1) 1); lia. Qed.
  (** The state at the end of the sweeps. *)
  Lemma last_state j s Es : j <= max_iter -> 1 <= j -> reach (j * sweep_size L) s Es -> chain_norm sites x x' <> rz -> 
    d_oc s = Z.of_nat p0 /\ fit (d_sites s) x x' /\ length (d_sites s) = L /\ sizes (d_sites s) = sizes sites /\ chain_norm (d_sites s) x x' = ro /\
    gauge (if p0 =? 0 then (if L - 1 =? 1 then 0 else 1) else if p0 =? L - 2 then p0 else p0 + 1) (d_sites s).
  Proof.
    intros Hj Hj1 (env & hs2 & st & E1 & E2 & U) HN. pose proof (@len_sites N hs sites o o' Os) as LS. destruct start_base as (env' & hs2' & E1' & E2' & I). rewrite E1 in E1'. rewrite E2 in E2'. injection E1' as <-. injection E2' as <-.
    destruct (@start_phase L oc HL Ho) as (ph & J). pose proof sweep_pos as SP. pose proof (@good_reached env hs2 E1 E2) as GR. rewrite LS in U, I, GR |- *.
    assert (SN : 1 * 1 <= j * sweep_size L) by (apply Nat.mul_le_mono; assumption).
    destruct (@run_free N W eps dsvd wt thr mn mx H_thin H_val Hmn hs hs2 l e x o x' o' (sizes sites) eq_refl eq_refl E2 HC (mkDst sites env (Z.of_nat (start_pos L oc))) (start_pos L oc) (start_step L oc) ph I J (@norm_solid N sites x x' Fs HN) (max_iter * sweep_size L)) with (n := j * sweep_size L) (s := s) (step := st) (Es := Es)
      as (p & I1 & J1 & _ & _ & HG).
    { exact GR. } { apply Nat.mul_le_mono_r, Hj. } { exact U. }
    destruct HG as (N1 & p1 & st1 & J2 & G). { lia. } { apply (full_cover J). pose proof (Nat.mul_le_mono_r 1 j (sweep_size L) Hj1) as Q. unfold sweep_size in Q |- *. lia. }
    assert (NF : nxs (L - 1) (j * sweep_size L) ph = ph) by (apply (nxs_full j J)). rewrite NF in J1. destruct (phase_fun J J1) as (<- & <-). pose proof I1 as (Q1 & Q2 & Q3 & Q4 & Q5 & _).
    split; [exact Q1|]. split; [exact Q3|]. split; [symmetry; eapply ofit_len; exact Q4|]. split; [exact Q5|]. split; [exact N1|].
    assert (J3 : at_phase (L - 1) (nx (L - 1) (nxs (L - 1) (j * sweep_size L - 1) ph)) (start_pos L oc) (start_step L oc)).
    { replace (nx (L - 1) (nxs (L - 1) (j * sweep_size L - 1) ph)) with (nxs (L - 1) (S (j * sweep_size L - 1)) ph) by reflexivity. replace (S (j * sweep_size L - 1)) with (j * sweep_size L) by (assert (1 * 1 <= j * sweep_size L) by (apply Nat.mul_le_mono; assumption); lia). rewrite NF. exact J. }
    rewrite (centre_prev J2 J3) in G; [replace (L - 2) with (L - 1 - 1) by lia; exact G|]. unfold start_pos, start_step. destruct (Nat.eqb_spec (L - 1) 1), (Nat.eqb_spec oc (L - 1)), (Nat.eqb_spec oc 0); intros; try reflexivity; lia.
  Qed.
  (** What the driver does after the sweeps. *)
  Lemma finish j s Es E : j <= max_iter -> 1 <= j -> reach (j * sweep_size L) s Es -> chain_norm sites x x' <> rz ->
    exists sites',
      (let p := d_oc s in
       if (negb (p =? Z.of_nat p0) && (negb (p =? Z.of_nat p0 - 1) && negb (p0 =? length sites - 1)%nat))%Z then Some (Throw RuntimeError) else
       let p := (p + (if p =? 0 then 1 else 0))%Z in
       if (p =? Z.of_nat p0)%Z then Some (Ok (E, d_sites s, p)) else Some (do y <- mps_move dsvd (d_sites s) p (Z.of_nat p0) ; Ok (E, fst y, snd y)))
      = Some (Ok (E, sites', Z.of_nat p0) : result (t * list t * Z)) /\
      fit sites' x x' /\ sizes sites' = sizes sites /\ chain_norm sites' x x' = ro /\ canonical sites' (final_centre (length sites) oc) /\ chain_energy hs l e sites' = chain_energy hs l e (d_sites s).
  Proof.
    intros Hj Hj1 R HN. destruct (@last_state j s Es Hj Hj1 R HN) as (Q1 & Q2 & Q3 & Q4 & Q5 & G). pose proof (@len_sites N hs sites o o' Os) as LS. unfold final_centre. rewrite LS in Q1, G |- *. cbv zeta. rewrite Q1, Z.eqb_refl. cbn [negb andb].
    destruct (Nat.eqb_spec (start_pos L oc) 0) as [Z0|Z0].
    - rewrite Z0. cbn [Z.of_nat Z.eqb Z.add orb]. destruct (@mps_move_dense N dsvd (d_sites s) x x' 1 0 H_thin Q2 ltac:(lia) ltac:(lia)) as (s' & E1 & F1 & L1 & S1 & _ & C1). cbn [Z.of_nat Pos.of_succ_nat] in E1. rewrite E1. cbn [rbind fst snd].
      exists s'. split; [reflexivity|]. split; [exact F1|]. split; [rewrite (proj1 S1); exact Q4|]. split; [rewrite (same_norm S1); exact Q5|]. split; [|apply (@same_energy N hs l e x o x' o' eq_refl eq_refl _ _ S1)].
      assert (HI : centred (Nat.min 1 0) (Nat.max L 1) 0 s').
      { apply C1.
        - intros j' s1 A Mx Hj' EM NA CM. assert (j' = 1) by lia. subst j'. assert (s1 = d_sites s).
          { revert EM. unfold mps_move. destruct (negb _); [discriminate|]. destruct (zget _ _); cbn [rbind]; try discriminate. unfold move_to. cbn. destruct (negb _); [discriminate|]. cbn. intros [= <-]. reflexivity. }
          subst s1. apply (@Hmove (j * sweep_size L) s Es A Mx); auto; [rewrite LS; apply Nat.mul_le_mono_r, Hj|rewrite Q1, Z0; reflexivity].
        - split; [intros j' A Hj'; lia|]. intros j' A Hj' NA. apply gauge_canonical in G as (_ & G). apply G with j'; [|exact NA]. rewrite Q3. destruct (L - 1 =? 1); cbn [Nat.eqb]; lia. }
      split; [intros j' A Hj'; lia|]. intros j' A Hj' NA. rewrite L1, Q3 in Hj'. apply (proj2 HI j' A); [lia|exact NA].
    - destruct (Z.eqb_spec (Z.of_nat (start_pos L oc)) 0); [lia|]. rewrite Z.add_0_r, Z.eqb_refl. exists (d_sites s). split; [reflexivity|]. split; [exact Q2|]. split; [exact Q4|]. split; [exact Q5|]. split; [|reflexivity]. cbn [orb].
      apply gauge_canonical. exact G.
  Qed.

  Theorem run_returned E sites' c : run = Some (Ok (E, sites', c)) ->
    fit sites' x x' /\ sizes sites' = sizes sites /\ chain_norm sites' x x' = ro /\ c = Z.of_nat p0 /\ canonical sites' (final_centre (length sites) oc).
  Proof.
    pose proof (@len_sites N hs sites o o' Os) as LS. destruct start_base as (env & hs2 & E1 & E2 & I). unfold t_dmrg. rewrite E1. cbn [obind]. rewrite E2. cbn [obind]. unfold t_dmrg_impl. rewrite norm_ok. cbn [obind].
    destruct (reqb (chain_norm sites x x') rz) eqn:Q; cbn [orb]; [discriminate|]. assert (HN : chain_norm sites x x' <> rz) by (intros Z; rewrite (proj2 (reqb_spec N _ _) Z) in Q; discriminate).
    destruct (negb _); [discriminate|]. destruct (sweeps _ _ _ _ _ _ _ _ _ _ _ _) as [[[E' s]| |]|] eqn:SW; cbn [obind]; try discriminate.
    apply sweeps_inv in SW as (j & st & Es & Hj & Hj1 & U & _). assert (R : reach (j * sweep_size L) s Es) by (exists env, hs2, st; rewrite <- LS at 1; auto).
    destruct (@finish j s Es E' Hj (Hj1 Hiter) R HN) as (s' & EF & F & S & NN & C & _). cbv zeta in EF |- *. rewrite EF. intros [= <- <- <-]. auto.
  Qed.

  (** The last update of a run that returns, from a chain in any form: the energy reported is that of the chain. *)
  Theorem run_last_energy E sites' c : run = Some (Ok (E, sites', c)) -> le N rz eps -> eps <> rz ->
    exists k s1 Es1 s2 Es2 p, reach k s1 Es1 /\ reach (S k) s2 Es2 /\ sweep_size L <= S k <= total /\ d_oc s1 = Z.of_nat p /\ E = last Es2 E /\
      ((oc = 0 /\ L <> 3) \/ sweep_size L < S k -> improvable_at eps hs l e (d_sites s1) p -> full_bond (d_sites s2) p -> dv E [] = chain_energy hs l e sites').
  Proof.
    intros RUN Pe Ze. revert RUN. pose proof (@len_sites N hs sites o o' Os) as LS. destruct start_base as (env & hs2 & E1 & E2 & I). unfold t_dmrg. rewrite E1. cbn [obind]. rewrite E2. cbn [obind]. unfold t_dmrg_impl. rewrite norm_ok. cbn [obind].
    destruct (reqb (chain_norm sites x x') rz) eqn:Q; cbn [orb]; [discriminate|]. assert (HN : chain_norm sites x x' <> rz) by (intros Z; rewrite (proj2 (reqb_spec N _ _) Z) in Q; discriminate).
    destruct (negb _); [discriminate|]. destruct (sweeps _ _ _ _ _ _ _ _ _ _ _ _) as [[[E' s]| |]|] eqn:SW; cbn [obind]; try discriminate.
    apply sweeps_inv in SW as (j & st & Es & Hj & Hj1 & U & EE). specialize (Hj1 Hiter). assert (R : reach (j * sweep_size L) s Es) by (exists env, hs2, st; rewrite <- LS at 1; auto).
    destruct (@finish j s Es E' Hj Hj1 R HN) as (s' & EF & F & S & NN & C & EN). cbv zeta in EF |- *. rewrite EF. intros [= <- <- <-].
    pose proof sweep_pos as SP. assert (S2 : 2 <= sweep_size L) by (unfold sweep_size; destruct (Nat.eqb_spec (L - 1) 1); lia).
    assert (KB : j * sweep_size L <= max_iter * sweep_size L) by (apply Nat.mul_le_mono_r, Hj). assert (K1 : 1 * sweep_size L <= j * sweep_size L) by (apply Nat.mul_le_mono_r, Hj1).
    destruct (j * sweep_size L) as [|k] eqn:QK; [lia|]. rewrite LS in U. rewrite QK in U. pose proof U as U2. apply snoc_inv in U2 as (s1 & st1 & Es1 & E3 & U1 & UE & _ & QE). fold (t_updates eps dsvd wt thr mn mx hs hs2) in U1. fold (t_updates eps dsvd wt thr mn mx hs hs2) in U.
    destruct (@start_phase L oc HL Ho) as (ph & J). pose proof (@good_reached env hs2 E1 E2) as GR. rewrite LS in I, GR |- *.
    pose proof (@run_free N W eps dsvd wt thr mn mx H_thin H_val Hmn hs hs2 l e x o x' o' (sizes sites) eq_refl eq_refl E2 HC (mkDst sites env (Z.of_nat (start_pos L oc))) (start_pos L oc) (start_step L oc) ph I J (@norm_solid N sites x x' Fs HN) (max_iter * sweep_size L) GR) as RF.
    destruct (RF k s1 st1 Es1 ltac:(lia) U1) as (p & I1 & _). pose proof I1 as (Ep & _).
    exists k, s1, Es1, s, Es, p. split; [exists env, hs2, st1; rewrite LS; auto|]. split; [exact R|]. split; [lia|]. split; [exact Ep|]. split; [rewrite EE, QE, !last_last; reflexivity|].
    intros HD HI HF. rewrite EN, EE. apply (@free_last N W eps dsvd wt thr mn mx H_thin H_val Hmn hs hs2 l e x o x' o' (sizes sites) eq_refl eq_refl E2 HC (mkDst sites env (Z.of_nat (start_pos L oc))) (start_pos L oc) (start_step L oc) ph I J
      (@norm_solid N sites x x' Fs HN) (max_iter * sweep_size L) GR Pe Ze k s st Es s1 st1 Es1 p); try assumption; try lia.
    destruct HD as [(O0 & D) | D].
    - assert (P0 : ph = 0).
      { destruct J as [(_ & -> & _) | (HM & Hp & Jp & _)]; [reflexivity|]. revert Jp. unfold start_pos, pos. rewrite O0. destruct (Nat.eqb_spec 0 (L - 1)); [lia|]. destruct (Nat.leb_spec ph (L - 1 - 1)); lia. }
      rewrite P0 in J |- *. apply (front_cover J). unfold sweep_size in K1. destruct (Nat.eqb_spec (L - 1) 1); lia.
    - apply (full_cover J). unfold sweep_size in D, S2. lia.
  Qed.

  (** From here on the chain is in canonical form. *)
  Hypothesis Cs : canonical sites oc.
  Lemma start_ok : exists env hs2, t_generate_env slack undef hs sites oc = Ok env /\ compute_2sites_hamil t_tdot t_perm hs = Ok hs2 /\ inv hs l e x o x' o' (sizes sites) p0 (mkDst sites env (Z.of_nat p0)).
  Proof.
    clear Hgood Hmove Hiter. pose proof (@len_sites N hs sites o o' Os) as LS. destruct start_base as (env & hs2 & E1 & E2 & I). exists env, hs2. split; [exact E1|]. split; [exact E2|]. pose proof I as (B1 & B2 & B3 & B4 & B5 & B6 & B7 & B8).
    do 8 (split; [assumption|]). cbn [d_sites]. destruct (canonical_gauge Cs) as (GL & GR).
    assert (Hp : p0 + 2 <= L /\ p0 <= oc /\ oc <= p0 + 1 /\ (oc = p0 \/ p0 + 2 = L)) by (unfold start_pos; rewrite LS; destruct (Nat.eqb_spec oc (L - 1)); lia). destruct Hp as (P1 & P2 & P3 & P4). split.
    + replace p0 with (Nat.min p0 oc) by lia. rewrite <- firstn_firstn. apply Forall_forall. intros A HA. rewrite Forall_forall in GL. apply GL. rewrite <- (firstn_skipn p0 (firstn oc sites)). apply in_or_app. left. exact HA.
    + destruct P4 as [Q | Q]; [|rewrite skipn_all2 by lia; constructor]. replace (p0 + 2) with (oc + 1 + 1) by lia. rewrite <- (@skipn_skipn' _ 1 (oc + 1)). destruct (skipn (oc + 1) sites) as [|b r]; [constructor|]. inversion GR; assumption.
  Qed.
  Hypothesis Peps : le N rz eps.
  Hypothesis Zeps : eps <> rz.
  Hypothesis Oeps : le N eps ro.
  Hypothesis N1 : chain_norm sites x x' = ro.
  Hypothesis Him : forall k s Es p, k < total -> reach k s Es -> d_oc s = Z.of_nat p -> improvable_at eps hs l e (d_sites s) p.
  Hypothesis Hfull : forall k s Es p s' Es', k < total -> reach k s Es -> d_oc s = Z.of_nat p -> reach (S k) s' Es' -> full_bond (d_sites s') p.
  Lemma falling_last (Es : list t) : forall E0 : N, falling E0 Es -> le N (last (map (fun E => dv E []) Es) E0) E0.
  Proof.
    induction Es as [|E1 Es IH]; intros E0; [intros _; apply le_refl|]. intros (A & B). apply le_trans with (dv E1 []); [|exact A]. replace (last _ E0) with (last (map (fun E => dv E []) Es) (dv E1 [])); [apply IH, B|].
    cbn [map]. generalize (dv E1 []). clear. induction (map (fun E : t => dv E []) Es) as [|a r IH]; intros d; [reflexivity|]. cbn [last] in *. destruct r; [reflexivity|]. apply IH.
  Qed.
  Theorem run_energy_ok : exists E sites' c, run = Some (Ok (E, sites', c)) /\ dv E [] = chain_energy hs l e sites' /\ le N (dv E []) (chain_energy hs l e sites) /\
    exists k s Es, 1 <= k <= total /\ reach k s Es /\ falling (chain_energy hs l e sites) Es /\ E = last Es E.
  Proof.
    pose proof (@len_sites N hs sites o o' Os) as LS. destruct start_ok as (env & hs2 & E1 & E2 & I). unfold t_dmrg. rewrite E1. cbn [obind]. rewrite E2. cbn [obind]. unfold t_dmrg_impl. rewrite norm_ok, N1. cbn [obind].
    assert (HN : chain_norm sites x x' <> rz) by (rewrite N1; apply n_one). destruct (reqb ro rz) eqn:Q; [exfalso; apply reqb_spec in Q; exact (n_one N Q)|]. unfold le in Oeps. rewrite Oeps. cbn [orb negb].
    destruct (@start_phase L oc HL Ho) as (ph & J). pose proof (@good_reached env hs2 E1 E2) as GR.
    assert (IR : forall m s st Es p, m < total -> t_updates eps dsvd wt thr mn mx hs hs2 m (mkDst sites env (Z.of_nat p0)) (start_step (length sites) oc) (Z.of_nat L - 2) = Some (Ok (s, st, Es)) -> d_oc s = Z.of_nat p -> improvable_at eps hs l e (d_sites s) p).
    { intros m s st Es p Hm U. apply (@Him m s Es p Hm). exists env, hs2, st. split; [exact E1|]. split; [exact E2|]. rewrite <- U, LS. reflexivity. }
    assert (FR : forall m s st Es p s' st' Es', m < total -> t_updates eps dsvd wt thr mn mx hs hs2 m (mkDst sites env (Z.of_nat p0)) (start_step (length sites) oc) (Z.of_nat L - 2) = Some (Ok (s, st, Es)) -> d_oc s = Z.of_nat p ->
      t_updates eps dsvd wt thr mn mx hs hs2 (S m) (mkDst sites env (Z.of_nat p0)) (start_step (length sites) oc) (Z.of_nat L - 2) = Some (Ok (s', st', Es')) -> full_bond (d_sites s') p).
    { intros m s st Es p s' st' Es' Hm U Ep U'. apply (@Hfull m s Es p s' Es' Hm); [|exact Ep|].
      - exists env, hs2, st. split; [exact E1|]. split; [exact E2|]. rewrite <- U, LS. reflexivity.
      - exists env, hs2, st'. split; [exact E1|]. split; [exact E2|]. rewrite <- U', LS. reflexivity. }
    destruct (@sweeps_go t (compute_left_env t_tdot t_conj) (compute_right_env t_tdot t_conj) (t_site_update eps dsvd wt thr mn mx) hs hs2 (t_converged crit) (Z.of_nat (length sites) - 2) (sweep_size (length sites)) (fun E => dsh E = []) max_iter
      (mkD [] (fun _ => e_init)) (mkDst sites env (Z.of_nat p0)) (start_step (length sites) oc)) as (E & s & SW).
    { intros m Hm. rewrite LS in I, GR, IR, FR, Hm |- *. apply (@run_go N W eps dsvd wt thr mn mx H_thin H_val Hmn hs hs2 l e x o x' o' (sizes sites) eq_refl eq_refl E2 HC (mkDst sites env (Z.of_nat (start_pos L oc))) (start_pos L oc) (start_step L oc) ph I J HN (max_iter * sweep_size L) GR Peps Zeps N1 IR m Hm). }
    { reflexivity. }
    { intros A B SA SB. unfold t_converged, t_zip, t_item. rewrite SA, SB. cbn. change (1 =? 1) with true. cbn. eauto. }
    rewrite SW. cbn [obind]. apply sweeps_inv in SW as (j & st & Es & Hj & Hj1 & U & EE). specialize (Hj1 Hiter). assert (R : reach (j * sweep_size L) s Es) by (exists env, hs2, st; rewrite <- LS at 1; auto).
    pose proof sweep_pos as SP. assert (KB : 1 <= j * sweep_size L <= max_iter * sweep_size L) by (split; [assert (1 * 1 <= j * sweep_size L) by (apply Nat.mul_le_mono; assumption); lia|apply Nat.mul_le_mono_r, Hj]).
    destruct (@finish j s Es E Hj Hj1 R HN) as (s' & EF & F & S & NN & C & EN). cbv zeta in EF |- *. rewrite EF. exists E, s', (Z.of_nat p0). split; [reflexivity|].
    rewrite LS in I, GR, IR, FR, U |- *.
    destruct (@run_energy N W eps dsvd wt thr mn mx H_thin H_val Hmn hs hs2 l e x o x' o' (sizes sites) eq_refl eq_refl E2 HC (mkDst sites env (Z.of_nat (start_pos L oc))) (start_pos L oc) (start_step L oc) ph I J HN (max_iter * sweep_size L) GR Peps Zeps N1 IR FR
      (j * sweep_size L) s st Es (proj2 KB) U) as (FA & LA). cbn [d_sites] in FA, LA.
    assert (NE : Es <> []).
    { intros ->. destruct (j * sweep_size L) as [|n] eqn:QN; [lia|]. apply snoc_inv in U as (? & ? & l1 & E3 & _ & _ & _ & Q3). destruct l1; discriminate. }
    assert (VE : dv E [] = last (map (fun E => dv E []) Es) (chain_energy hs l e sites)).
    { rewrite EE. clear - NE. destruct Es as [|y Es _] using rev_ind; [congruence|]. rewrite map_app. cbn [map]. rewrite !last_last. reflexivity. }
    split; [rewrite VE, EN; symmetry; exact LA|]. split; [rewrite VE; apply falling_last, FA|]. exists (j * sweep_size L), s, Es. split; [exact KB|]. split; [exact R|]. split; [exact FA|].
    rewrite EE. clear - NE. destruct Es as [|y Es _] using rev_ind; [congruence|]. rewrite !last_last. reflexivity.
  Qed.
End Main.
