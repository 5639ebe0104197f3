(** The start and the end of a run of DMRG on block tensors. *)
From Verif Require Import Base Quantity QuantityProofs Ring Index SpecIndex Dense IndexProofs BTensor SpecBTensor BTensorProofs BTensorArith Bcast Tensordot SpecTensordot View SpecView Chain SpecChain ChainProofs ChainThms ChainInst ChainEnd
  SpecMove SpecSvd SvdDense BSvd MoveOc Truncate SpecTruncate BTrunc SpecBTrunc BTruncProofs Num Lanczos BLanczos SpecBLanczos
  BLanczosThms SiteUpdate BSiteUpdate BSiteChain Edges SpecEdges EdgesProofs EdgesBlock Dmrg DmrgProofs DmrgRun DmrgRunProofs DmrgRunThms DmrgRunMain BDmrgRun SpecBDmrgRun BRunStep BRunSite BRunProofs.
Set Implicit Arguments.

Section Edge.
  Variable G : abgroup.
  Variable R : ring.
  Variable imax : nat.
  Variable last_first : bool.
  Notation bt := (btensor G R).
  Notation tl := (@blegs G R).
  Notation dual := (@bdual G).
  Notation den := (@stored G R imax).
  Notation order_ok := (order_ok last_first).
  (** The edge of [generate_env], with its rule (see [env_edge_ok]). *)
  Lemma env_edge_rule (A H : bt) ds dh k kh c ch : valid A -> nonempty A -> ds < length (tl A) -> nth ds (tl A) ([], []) = k -> Forall (fun x => x = c) (snd k) -> length (fst k) <= imax ->
    valid H -> nonempty H -> dh < length (tl H) -> nth dh (tl H) ([], []) = kh -> Forall (fun x => x = ch) (snd kh) -> length (fst kh) <= imax ->
    exists E, b_env_edge last_first A H ds dh = Ok E /\ tl E = [dual k; dual kh; k] /\ den E (d_when (order_ok ch) (d_full [@bsz G k; @bsz G kh; @bsz G k] ro)) /\ b_rule E = if last_first then qinv G ch else ch.
  Proof.
    intros V N Hd Hk HC HI V' N' Hd' Hk' HC' HI'.
    destruct (@edge_prep_ok G R last_first A ds k c V N Hd Hk HC) as (S & ES & HS & HL & Hp). destruct (@edge_prep_ok G R last_first H dh kh ch V' N' Hd' Hk' HC') as (S' & ES' & HS' & HL' & Hp').
    unfold b_env_edge. rewrite ES, ES'. cbn [rbind]. cbn [shape_from_list rfold].
    pose proof (inverse_shape HS) as HSi.
    assert (HS0 : meta_ok (sparse_zeros_like S)) by exact (shape_is_meta HS).
    destruct (@product_shape_ok G R (sparse_zeros_like S) S' HS0 (shape_is_meta HS')) as (P & EP & HP). rewrite EP. cbn [rbind].
    destruct (@product_shape_ok G R P (inverse_cvals S) (shape_is_meta HP) (shape_is_meta HSi)) as (F & EF & HF). rewrite EF. cbn [rbind].
    assert (HF' : shape_is F [fst k; fst kh; fst k] [map (qinv G) (snd k); map (qinv G) (snd kh); snd k] (if last_first then qinv G ch else ch)).
    { destruct HP as (_ & _ & p1 & p2 & p3), HS as (_ & _ & a1 & a2 & a3), HS' as (_ & _ & b1 & b2 & b3), HSi as (_ & _ & i1 & i2 & i3).
      rewrite p1, p2, p3, i1, i2, i3 in HF. change (legs (sparse_zeros_like S)) with (legs S) in HF. change (qlegs (sparse_zeros_like S)) with (qlegs S) in HF. change (b_rule (sparse_zeros_like S)) with (b_rule S) in HF.
      rewrite a1, a2, a3, b1, b2, b3 in HF. cbn in HF. rewrite map_map in HF. rewrite (map_ext _ (fun a => a) (qinv_inv G)), map_id in HF.
      destruct HF as (f1 & f2 & f3 & f4 & f5). split; [exact f1|]. split; [exact f2|]. split; [exact f3|]. split; [exact f4|]. rewrite f5.
      rewrite (qop_comm G (if last_first then qinv G c else c)), <- qop_assoc, qop_inv_r, qop_e_r. reflexivity. }
    destruct (@shape_ones G R F _ _ _ (qinv G ch) HF') as (E & EE & SM & VE & DE).
    - intros l [<-|[<-|[<-|[]]]]; destruct (fst k); destruct (fst kh); cbn in *; lia.
    - intros b Hb. destruct b as [|x [|y [|z [|? ?]]]]; cbn in Hb; rewrite ?andb_false_r in Hb; try discriminate. rewrite !andb_true_iff, !Nat.ltb_lt in Hb. cbn. rewrite qop_e_r.
      rewrite (@pick_uniform G (qinv G c) x (map (qinv G) (snd k)) (length (fst k))); [|apply uniform_inv; exact HC|rewrite map_length; exact HL|tauto].
      rewrite (@pick_uniform G (qinv G ch) y (map (qinv G) (snd kh)) (length (fst kh))); [|apply uniform_inv; exact HC'|rewrite map_length; exact HL'|tauto].
      rewrite (@pick_uniform G c z (snd k) (length (fst k))); [|exact HC|exact HL|tauto].
      rewrite (qop_comm G (qinv G c)), <- qop_assoc, qop_inv_r, qop_e_r. reflexivity.
    - rewrite (order_rule G last_first) in DE. exists E. split; [exact EE|]. destruct (@shape_stored G R imax _ _ _ _ _ _ HF' SM VE DE) as [TT DD]; [intros l [<-|[<-|[<-|[]]]]; assumption|]. split; [rewrite TT; destruct k; reflexivity|]. split; [exact DD|]. rewrite <- (proj1 SM). apply HF'.
  Qed.
End Edge.

Section F.
  Context {G : abgroup} {N : numeric}.
  Variable imax : nat.
  Notation bt := (btensor G N).
  Notation d := (dense N).
  Notation tl := (@blegs G N).
  Notation dual := (@bdual G).
  Notation den := (@stored G N imax).
  Notation fit := (mps_fit tl dual).
  Notation ofit := (mpo_fit tl dual).
  Notation leg := (list nat * list G)%type.
  Notation tdot := (@tensordot G N imax).
  Notation lstep := (compute_left_env tdot (@conj G N)).
  Notation rstep := (compute_right_env tdot (@conj G N)).
  Lemma bofit_cut : forall (h a b : list bt) u w n, ofit h a b u w -> exists v, ofit (firstn n h) (firstn n a) (firstn n b) u v /\ ofit (skipn n h) (skipn n a) (skipn n b) v w.
  Proof.
    induction h as [|h0 h IH]; intros [|a0 a] [|b0 b] u w n F; try destruct F.
    - exists u. rewrite !firstn_nil, !skipn_nil. split; [reflexivity|exact eq_refl].
    - destruct H as (p & p' & E1 & E2 & E3 & F). destruct n as [|n]; cbn [firstn skipn]; [exists u; split; [reflexivity|]; exists x, p, p'; auto|].
      destruct (IH a b x w n F) as (v & F1 & F2). exists v. split; [exists x, p, p'; auto|exact F2].
  Qed.
  Lemma bfit_cut : forall (a : list bt) u w n, fit a u w -> exists v, fit (firstn n a) u v /\ fit (skipn n a) v w.
  Proof. intros a u w n F. rewrite <- (firstn_skipn n a) in F. apply mps_fit_app in F. exact F. Qed.

  Variables (hs sites : list bt) (Dhs Ds : list d) (l e : bt) (Dl De : d) (x o x' o' : leg).
  Hypothesis (HDh : Forall2 den hs Dhs) (HDs : Forall2 den sites Ds) (HDl : den l Dl) (HDe : den e De).
  Hypothesis Sl : tl l = [x; o; dual x].
  Hypothesis Se : tl e = [dual x'; dual o'; x'].
  Hypothesis Fs : fit sites x x'.
  Hypothesis Os : ofit hs sites sites o o'.
  Notation L := (length hs).
  Definition bleft_at (env : list bt) (i : nat) : Prop := exists E, nth_error env i = Some E /\ left_envs tdot (@conj G N) (firstn i hs) (firstn i sites) l = Ok E.
  Definition bright_at (env : list bt) (i : nat) : Prop := exists E, nth_error env (i + 1) = Some E /\ right_envs tdot (@conj G N) (skipn i hs) (skipn i sites) e = Ok E.
  Lemma blen_sites : length sites = L.
  Proof. symmetry. eapply bofit_len; eauto. Qed.
  Lemma bleft_ex i : exists E, left_envs tdot (@conj G N) (firstn i hs) (firstn i sites) l = Ok E.
  Proof. destruct (@bfit_cut sites x x' i Fs) as (v & F & _). destruct (@bofit_cut hs sites sites o o' i Os) as (w & O & _). destruct (@b_left_envs G N imax _ _ l x o v w _ _ Dl (F2_firstn i HDs) (F2_firstn i HDh) HDl Sl F O) as (E & H & _). eauto. Qed.
  Lemma bright_ex i : exists E, right_envs tdot (@conj G N) (skipn i hs) (skipn i sites) e = Ok E.
  Proof. destruct (@bfit_cut sites x x' i Fs) as (v & _ & F). destruct (@bofit_cut hs sites sites o o' i Os) as (w & _ & O). destruct (@b_right_envs G N imax _ _ e v w x' o' _ _ De (F2_skipn i HDs) (F2_skipn i HDh) HDe Se F O) as (E & H & _). eauto. Qed.
  Lemma bfill_left_ok : forall k i env, length env = L + 2 -> i + k <= L -> (forall j, j <= i -> bleft_at env j) ->
    exists env', fill_left lstep hs k i sites env = Ok env' /\ length env' = L + 2 /\ (forall j, j <= i + k -> bleft_at env' j) /\ forall j, i + k < j -> nth_error env' j = nth_error env j.
  Proof.
    induction k as [|k IH]; intros i env HL Hi HE; cbn [fill_left].
    - exists env. rewrite Nat.add_0_r. auto.
    - pose proof blen_sites as LS. destruct (@nth_error_ex _ hs i) as [h Nh]; [lia|]. destruct (@nth_error_ex _ sites i) as [a Na]; [lia|]. destruct (HE i (le_n i)) as (E & NE & WE). unfold rnth. rewrite Nh, Na, NE. cbn [rbind].
      destruct (bleft_ex (S i)) as (E' & WE'). pose proof WE' as W2. rewrite (firstn_S_nth _ _ Nh), (firstn_S_nth _ _ Na), lsnoc, WE in W2 by (rewrite !firstn_length; lia). cbn [rbind] in W2. rewrite W2. cbn [rbind].
      replace (Z.of_nat i + 1)%Z with (Z.of_nat (S i)) by lia. rewrite zset_nat by lia. cbn [rbind].
      destruct (IH (S i) (upd env (S i) E')) as (env' & E1 & L1 & A1 & B1); [rewrite upd_length; lia|lia| |].
      + intros j Hj. unfold bleft_at. rewrite nth_error_upd by lia. destruct (Nat.eqb_spec j (S i)) as [-> |]; [eauto|apply HE; lia].
      + exists env'. split; [exact E1|]. split; [exact L1|]. split; [intros j Hj; apply A1; lia|]. intros j Hj. rewrite B1 by lia. rewrite nth_error_upd by lia. destruct (Nat.eqb_spec j (S i)); [lia|reflexivity].
  Qed.
  Lemma bfill_right_ok : forall k i env, length env = L + 2 -> k <= i + 1 -> i < L -> (forall j, i + 1 <= j <= L -> bright_at env j) ->
    exists env', fill_right rstep hs k i sites env = Ok env' /\ length env' = L + 2 /\ (forall j, i + 1 - k <= j <= L -> bright_at env' j) /\ forall j, j + k < i + 2 -> nth_error env' j = nth_error env j.
  Proof.
    induction k as [|k IH]; intros i env HL Hi HiL HE; cbn [fill_right].
    - exists env. rewrite Nat.sub_0_r. auto.
    - pose proof blen_sites as LS. destruct (@nth_error_ex _ hs i) as [h Nh]; [lia|]. destruct (@nth_error_ex _ sites i) as [a Na]; [lia|]. destruct (HE (i + 1)) as (E & NE & WE); [lia|]. replace (i + 1 + 1) with (i + 2) in NE by lia. unfold rnth. rewrite Nh, Na, NE. cbn [rbind].
      destruct (bright_ex i) as (E' & WE'). pose proof WE' as W2. rewrite (skipn_nth _ _ Nh), (skipn_nth _ _ Na) in W2. cbn [right_envs] in W2. replace (S i) with (i + 1) in W2 by lia. rewrite WE in W2. cbn [rbind] in W2. rewrite W2. cbn [rbind].
      replace (Z.of_nat i + 1)%Z with (Z.of_nat (i + 1)) by lia. rewrite zset_nat by lia. cbn [rbind].
      destruct k as [|k].
      { exists (upd env (i + 1) E'). split; [reflexivity|]. split; [rewrite upd_length; lia|]. split.
        - intros j Hj. unfold bright_at. rewrite nth_error_upd by lia. destruct (Nat.eqb_spec (j + 1) (i + 1)); [replace j with i by lia; eauto|apply HE; lia].
        - intros j Hj. rewrite nth_error_upd by lia. destruct (Nat.eqb_spec j (i + 1)); [lia|reflexivity]. }
      destruct (IH (i - 1) (upd env (i + 1) E')) as (env' & E1 & L1 & A1 & B1); [rewrite upd_length; lia|lia|lia| |].
      + intros j Hj. unfold bright_at. rewrite nth_error_upd by lia. destruct (Nat.eqb_spec (j + 1) (i + 1)) as [D|D]; [replace j with i by lia; eauto|apply HE; lia].
      + exists env'. split; [exact E1|]. split; [exact L1|]. split; [intros j Hj; apply A1; lia|]. intros j Hj. rewrite B1 by lia. rewrite nth_error_upd by lia. destruct (Nat.eqb_spec j (i + 1)); [lia|reflexivity].
  Qed.
  Lemma bgen_env_ok undef oc : 1 <= L -> oc < L -> exists env, gen_env lstep rstep hs undef sites oc l e = Ok env /\ length env = L + 2 /\ (forall j, j <= oc -> bleft_at env j) /\ forall j, oc + 1 <= j <= L -> bright_at env j.
  Proof.
    intros HL Ho. pose proof blen_sites as LS. unfold gen_env. set (env0 := upd (upd (repeat undef (L + 2)) 0 l) (L + 1) e).
    assert (Lr : length (upd (repeat undef (L + 2)) 0 l) = L + 2) by (rewrite upd_length; rewrite repeat_length; lia).
    assert (L0 : length env0 = L + 2) by (unfold env0; rewrite upd_length; lia).
    assert (N0 : nth_error env0 0 = Some l) by (unfold env0; rewrite nth_error_upd by lia; destruct (Nat.eqb_spec 0 (L + 1)); [lia|]; rewrite nth_error_upd by (rewrite repeat_length; lia); reflexivity).
    assert (N1 : nth_error env0 (L + 1) = Some e) by (unfold env0; rewrite nth_error_upd, Nat.eqb_refl by lia; reflexivity).
    destruct (@bfill_left_ok oc 0 env0 L0) as (env1 & E1 & L1 & A1 & B1); [lia| |]. { intros j Hj. assert (j = 0) by lia. subst j. exists l. split; [exact N0|reflexivity]. }
    rewrite E1. cbn [rbind]. destruct (@bfill_right_ok (L - 1 - oc) (L - 1) env1 L1) as (env2 & E2 & L2 & A2 & B2); [lia|lia| |].
    { intros j Hj. assert (j = L) by lia. subst j. exists e. rewrite B1 by lia. split; [exact N1|]. rewrite !skipn_all2 by lia. reflexivity. }
    exists env2. split; [exact E2|]. split; [exact L2|]. split.
    - intros j Hj. destruct (A1 j Hj) as (E & NE & WE). exists E. rewrite B2 by lia. auto.
    - intros j Hj. apply A2. lia.
  Qed.
End F.

Section Ends.
  Context {G : abgroup} {N : numeric}.
  Variable last_first : bool.
  Variable imax : nat.
  Notation bt := (btensor G N).
  Notation d := (dense N).
  Notation tl := (@blegs G N).
  Notation dual := (@bdual G).
  Notation den := (@stored G N imax).
  Notation fit := (mps_fit tl dual).
  Notation ofit := (mpo_fit tl dual).
  Notation leg := (list nat * list G)%type.
  Notation rules := (fun l : list bt => qprod G (map (@b_rule G N) l)).
  Variables (hs sites : list bt) (x o x' o' : leg) (cx cx' co co' : G).
  Notation L := (length hs).
  Hypothesis HL : 2 <= L.
  Hypothesis Ws : Forall (well imax) sites.
  Hypothesis Wh : Forall (well imax) hs.
  Hypothesis Fs : fit sites x x'.
  Hypothesis Os : ofit hs sites sites o o'.
  Hypothesis (Cx : carries_only x cx) (Cx' : carries_only x' cx') (Co : carries_only o co) (Co' : carries_only o' co').
  Hypothesis Ne : Forall nonempty (sites ++ hs).
  Hypothesis (Or : order_ok last_first co = true) (Or' : order_ok last_first co' = true).
  Hypothesis HR : qop G co (rules hs) = co'.
  Lemma order_l : order_ok last_first (qinv G co) = true /\ (if last_first then qinv G (qinv G co) else qinv G co) = co.
  Proof.
    revert Or. unfold order_ok. destruct last_first; cbn [orb]; [intros _; split; [reflexivity|apply qinv_inv]|]. intros Q. apply qeqb_spec in Q. rewrite <- Q. split; [apply qeqb_spec; exact Q|reflexivity].
  Qed.
  Lemma order_r : (if last_first then qinv G co' else co') = qinv G co'.
  Proof. revert Or'. unfold order_ok. destruct last_first; cbn [orb]; [reflexivity|]. intros Q. apply qeqb_spec in Q. exact Q. Qed.

  Lemma bedges : exists l e Dl De, run_edges last_first hs sites l e /\ den l Dl /\ den e De /\ (Dl = d_full [bsz G x; bsz G o; bsz G x] ro /\ De = d_full [bsz G x'; bsz G o'; bsz G x'] ro) /\ tl l = [x; o; dual x] /\ tl e = [dual x'; dual o'; x'] /\ qop G (b_rule l) (qop G (rules hs) (b_rule e)) = qe G.
  Proof.
    pose proof (bofit_len _ _ _ _ _ Os) as LS. assert (SN : sites <> []) by (intros Q; rewrite Q in LS; cbn in LS; lia). assert (HN : hs <> []) by (intros Q; rewrite Q in HL; cbn in HL; lia).
    destruct sites as [|a0 a] eqn:Q1; [congruence|]. destruct hs as [|h0 h] eqn:Q2; [congruence|]. rewrite <- Q1, <- Q2 in *.
    assert (F0 := Fs). assert (O0 := Os). rewrite Q1 in F0 at 1. rewrite Q2, Q1 in O0. apply fit_front in F0 as (s & k & S0). apply op_front in O0 as (p & k0 & q & T0).
    destruct (@fit_back _ _ tl dual sites x x' SN Fs) as (a1 & k1 & s1 & B1 & I1 & S1). destruct (@op_back _ _ tl dual hs sites sites o o' HN Os) as (h1 & k2 & p2 & s2 & B2 & I2 & S2).
    rewrite Forall_forall in Ws, Wh, Ne.
    assert (WA : forall A kk, In A (sites ++ hs) -> In kk (tl A) -> valid A /\ nonempty A /\ length (fst kk) <= imax).
    { intros A kk HA HK. assert (WW : well imax A) by (apply in_app_or in HA as [HA|HA]; auto). split; [apply WW|]. split; [auto|]. destruct (well_den WW) as (DA & HDA). eapply stored_limit; eauto. }
    assert (A0 : In a0 (sites ++ hs)) by (rewrite Q1; left; reflexivity). assert (H0 : In h0 (sites ++ hs)) by (apply in_or_app; right; rewrite Q2; left; reflexivity).
    assert (A1 : In a1 (sites ++ hs)) by (apply in_or_app; auto). assert (H1 : In h1 (sites ++ hs)) by (apply in_or_app; auto).
    destruct (WA a0 (dual x) A0) as (V1 & N1 & L1); [rewrite S0; left; reflexivity|]. destruct (WA h0 (dual o) H0) as (V2 & N2 & L2); [rewrite T0; left; reflexivity|].
    destruct (WA a1 x' A1) as (V3 & N3 & L3); [rewrite S1; cbn; auto|]. destruct (WA h1 o' H1) as (V4 & N4 & L4); [rewrite S2; cbn; auto|].
    destruct (@env_edge_rule G N imax last_first a0 h0 0 0 (dual x) (dual o) (qinv G cx) (qinv G co) V1 N1) as (l & El & Tl & Dl & Rl); try assumption; try (rewrite S0; cbn; (lia || reflexivity)); try (rewrite T0; cbn; (lia || reflexivity)); try (apply uniform_inv; assumption).
    destruct (@env_edge_rule G N imax last_first a1 h1 2 2 x' o' cx' co' V3 N3) as (e & Ee & Te & De & Re); try assumption; try (rewrite S1; cbn; (lia || reflexivity)); try (rewrite S2; cbn; (lia || reflexivity)).
    exists l, e. eexists. eexists. split; [exists a0, h0, a1, h1; rewrite Q1 at 1; rewrite Q2 at 1; repeat split; assumption|]. split; [exact Dl|]. split; [exact De|]. split; [rewrite (proj1 order_l), Or'; split; reflexivity|]. rewrite !bdual_dual in Tl. split; [exact Tl|]. split; [exact Te|].
    rewrite Rl, Re, order_r, (proj2 order_l), qop_assoc, HR. apply qop_inv_r.
  Qed.
End Ends.

Section Main.
  Context {G : abgroup} {N : numeric} {W : weights}.
  Variable last_first : bool.
  Variable imax : nat.
  Notation bt := (btensor G N).
  Notation d := (dense N).
  Notation tl := (@blegs G N).
  Notation dual := (@bdual G).
  Notation den := (@stored G N imax).
  Notation fit := (mps_fit tl dual).
  Notation ofit := (mpo_fit tl dual).
  Notation leg := (list nat * list G)%type.
  Notation tdot := (@tensordot G N imax).
  Notation rules := (fun l : list bt => qprod G (map (@b_rule G N) l)).
  Notation phys := (map (fun A : bt => nth 1 (tl A) (bk0 G))).
  Variables eps e_init crit : N.
  Variable gtb : N -> N -> bool.
  Variable lower : N -> N.
  Variable wt : N -> W.
  Variable dsvd : d -> d * d * d.
  Variable thr : W.
  Variables mn mx : Z.
  Variable undef : bt.
  Hypothesis HO : total_order gtb.
  Hypothesis low : forall x, gtb x rz = true -> gtb x (lower x) = true.
  Hypothesis low0 : lower rz = rz.
  Hypothesis Hmn : (1 <= mn <= mx)%Z.
  Notation vals := (fun M => snd (fst (dsvd M))).
  Hypothesis H_thin : forall M, (exists m n, dsh M = [m; n]) -> thin M (dsvd M) /\ SpecBTrunc.descending gtb (entries (vals M)) /\ forall x, In x (entries (vals M)) -> gtb rz x = false.
  Variables (hs sites : list bt) (x o x' o' : leg) (oc max_iter : nat).
  Notation L := (length hs).
  Hypothesis HL : 2 <= L.
  Hypothesis Ho : oc < L.
  Hypothesis Ws : Forall (well imax) sites.
  Hypothesis Wh : Forall (well imax) hs.
  Hypothesis Fs : fit sites x x'.
  Hypothesis Os : ofit hs sites sites o o'.
  Notation p0 := (start_pos (length sites) oc).
  Notation reach := (b_reached last_first imax eps gtb lower wt dsvd thr mn mx undef hs sites oc).
  Notation run := (b_dmrg last_first imax eps e_init crit gtb lower wt dsvd thr mn mx undef max_iter hs sites oc).
  Notation total := (max_iter * sweep_size (length sites)).

  Variables (l e : bt) (Dl De : d).
  Hypothesis (Re : run_edges last_first hs sites l e) (HDl : den l Dl) (HDe : den e De) (Sl : tl l = [x; o; dual x]) (Se : tl e = [dual x'; dual o'; x']).
  Hypothesis HQ : qop G (b_rule l) (qop G (rules hs) (b_rule e)) = qe G.
  Notation inv := (binv imax hs l e x o x' o' (phys sites) (rules sites)).
  Lemma bstart : exists env hs2, b_generate_env last_first imax undef hs sites oc = Ok env /\ compute_2sites_hamil tdot b_perm hs = Ok hs2 /\ inv p0 (mkDst sites env (Z.of_nat p0)).
  Proof.
    pose proof (bofit_len _ _ _ _ _ Os) as LS. symmetry in LS. destruct (wells_den Ws) as (Ds & HDs). destruct (wells_den Wh) as (Dhs & HDh).
    destruct (@bgen_env_ok G N imax hs sites Dhs Ds l e Dl De x o x' o' HDh HDs HDl HDe Sl Se Fs Os undef oc ltac:(lia) Ho) as (env & EE & LE & AL & AR).
    assert (H2 : exists hs2, compute_2sites_hamil tdot b_perm hs = Ok hs2).
    { assert (OC : forall h a b u w, ofit h a b u w -> op_chain tl dual h u w).
      { clear. induction h as [|h0 h IH]; intros [|a0 a] [|b0 b] u w F; try destruct F; [exact eq_refl|]. destruct H as (p & p' & E & _ & _ & F). exists p', x, (dual p). split; [exact E|]. eapply IH, F. }
      pose proof (OC _ _ _ _ _ Os) as Oc. clear OC. inversion HDh as [E0 E1|h0 D0 h D HD0 HD E0 E1]; [rewrite <- E0 in HL; cbn in HL; lia|]. rewrite <- E0 in Oc. destruct (@b_two_sites G N imax h0 h o o' D0 D HD0 HD Oc) as (r & Er & _). eauto. }
    destruct H2 as (hs2 & H2). exists env, hs2. split; [|split; [exact H2|]].
    - unfold b_generate_env. destruct Re as (a0 & h0 & a1 & h1 & -> & -> & -> & -> & E1 & E2). cbn [rbind]. rewrite E1. cbn [rbind]. rewrite E2. cbn [rbind]. exact EE.
    - assert (Hp : p0 + 2 <= L /\ p0 <= oc /\ oc <= p0 + 1 /\ (oc = p0 \/ p0 + 2 = L)) by (unfold start_pos; rewrite LS; destruct (Nat.eqb_spec oc (L - 1)); lia). destruct Hp as (P1 & P2 & P3 & P4).
      split; [reflexivity|]. split; [exact P1|]. cbn [d_sites d_env]. split; [exact Fs|]. split; [exact Os|]. split; [exact Ws|]. split; [reflexivity|]. split; [reflexivity|]. split; [exact LE|]. split; [intros i Hi; apply AL; lia|]. intros i Hi; apply AR; lia.
  Qed.
  Hypothesis Hcut : forall k s Es p, k < total -> reach k s Es -> d_oc s = Z.of_nat p -> cut_fine imax eps gtb dsvd hs l e (d_sites s) p.

  Lemma brun_any env hs2 ph : b_generate_env last_first imax undef hs sites oc = Ok env -> compute_2sites_hamil tdot b_perm hs = Ok hs2 -> inv p0 (mkDst sites env (Z.of_nat p0)) -> at_phase (L - 1) ph p0 (start_step L oc) ->
    forall n s step Es, n <= total -> b_updates imax eps gtb lower wt dsvd thr mn mx hs hs2 n (mkDst sites env (Z.of_nat p0)) (start_step L oc) (Z.of_nat L - 2) = Some (Ok (s, step, Es)) ->
    exists p, inv p s /\ at_phase (L - 1) (nxs (L - 1) n ph) p step /\ Forall (fun E => exists DE, sc0 N imax E DE) Es.
  Proof.
    intros E1 E2 I0 J0. pose proof (bofit_len _ _ _ _ _ Os) as LS. destruct (wells_den Wh) as (Dhs & HDh).
    induction n as [|n IH]; intros s step Es HB U.
    - injection U as <- <- <-. exists p0. auto.
    - apply snoc_inv in U as (s1 & st1 & l1 & E & U1 & UE & -> & ->). fold (b_updates imax eps gtb lower wt dsvd thr mn mx hs hs2) in U1. destruct (IH _ _ _ ltac:(lia) U1) as (p & I1 & J1 & HE).
      pose proof I1 as (Ep & Hp & _). destruct (phase_step J1) as (q & Hq & Hs & HqM & J2).
      assert (D : bdir_ok hs p st1 q) by (split; [exact Hq|]; split; [exact Hs|lia]).
      destruct (@bstep_any G N W imax eps gtb lower wt dsvd thr mn mx hs hs2 Dhs l e Dl De x o x' o' (phys sites) (rules sites) HDh HDl HDe Sl Se E2 HQ HO low low0 Hmn H_thin p s1 st1 q s E I1 D) as (I2 & DE & HDE).
      { apply (@Hcut n s1 l1 p HB); [|exact Ep]. exists env, hs2, st1. split; [exact E1|]. split; [exact E2|]. rewrite <- U1, LS. reflexivity. } { exact UE. }
      exists q. split; [exact I2|]. split; [cbn [nxs]; pose proof I2 as (-> & _); replace (Z.of_nat L - 2)%Z with (Z.of_nat (L - 1) - 1)%Z by lia; exact J2|]. apply Forall_app. split; [exact HE|]. constructor; [eauto|constructor].
  Qed.

  Theorem brun_returned E sites' c : run = Some (Ok (E, sites', c)) ->
    Forall (well imax) sites' /\ fit sites' x x' /\ phys sites' = phys sites /\ rules sites' = rules sites /\ c = Z.of_nat p0 /\ neutral_scalar imax E.
  Proof.
    pose proof (bofit_len _ _ _ _ _ Os) as LS. destruct bstart as (env & hs2 & E1 & E2 & I). unfold b_dmrg. rewrite E1. cbn [obind]. rewrite E2. cbn [obind]. unfold b_dmrg_impl.
    destruct (sweeps _ _ _ _ _ _ _ _ _ _ _ _) as [[[E' s]| |]|] eqn:SW; cbn [obind]; try discriminate.
    apply sweeps_inv in SW as (j & st & Es & Hj & Hj1 & U & EE). rewrite <- LS in U, I |- *. destruct (@start_phase L oc HL Ho) as (ph & J).
    pose proof (@brun_any env hs2 ph E1 E2) as RA. rewrite <- LS in RA. destruct (RA I J (j * sweep_size L) s st Es) as (p & I1 & J1 & HE); [apply Nat.mul_le_mono_r, Hj|exact U|].
    assert (NF : nxs (L - 1) (j * sweep_size L) ph = ph) by (apply (nxs_full j J)). rewrite NF in J1. destruct (phase_fun J J1) as (<- & <-). pose proof I1 as (Q1 & Q2 & Q3 & Q4 & Q5 & Q6 & Q7 & _).
    rewrite Q1, Z.eqb_refl. intros [= <- <- <-]. split; [exact Q5|]. split; [exact Q3|]. split; [exact Q6|]. split; [exact Q7|]. split; [reflexivity|].
    assert (NE : neutral_scalar imax (last Es (b_e0 e_init))); [|rewrite EE; exact NE].
    destruct Es as [|E3 l1 _] using rev_ind; [|rewrite last_last; apply Forall_app in HE as (_ & HE); inversion HE as [|? ? (DE & HDE & TE & RE)]; subst; split; [eapply den_well; exact HDE|split; assumption]].
    destruct (@one_sc G N imax e_init) as (S1 & S2 & S3 & _). split; [apply (den_well N S1)|split; assumption].
  Qed.
End Main.
