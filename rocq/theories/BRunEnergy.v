(** The energy in a run of DMRG on block tensors. *)
From Verif Require Import Base Quantity QuantityProofs Ring Index SpecIndex Dense IndexProofs BTensor SpecBTensor BTensorProofs BTensorArith Bcast Tensordot SpecTensordot View SpecView Chain SpecChain ChainProofs ChainThms ChainInst ChainEnd
  SpecMove SpecSvd SvdDense BSvd MoveOc MoveInst Truncate SpecTruncate TruncateProofs BTrunc SpecBTrunc BTruncProofs Num Lanczos SpecLanczos LanczosProofs BLanczos SpecBLanczos BLanczosThms
  ChainEnergy SiteUpdate SpecSiteUpdate SiteUpdateThms BSiteUpdate SpecBSiteUpdate BSiteUpdateThms BSiteChain Edges SpecEdges EdgesProofs EdgesBlock
  Dmrg DmrgProofs DmrgRun SpecDmrgRun DmrgRunProofs DmrgRunThms DmrgRunMain BDmrgRun SpecBDmrgRun BRunStep BRunSite BRunProofs BRunMain.
Set Implicit Arguments.

Section Falling.
  Context {N : numeric}.
  Notation t := (dense N).
  Lemma fall_snoc (Es : list t) E : forall E0 : N, falling E0 Es -> le N (dv E []) (last (map (fun E => dv E []) Es) E0) -> falling E0 (Es ++ [E]).
  Proof.
    induction Es as [|E1 Es IH]; intros E0; cbn [falling app]; [cbn; auto|]. intros (H1 & H3) H4. split; [exact H1|]. apply IH; [exact H3|]. cbn [map] in H4. revert H4. generalize (dv E1 []). intros b.
    assert (Q : forall (r : list N) a c, last (a :: r) c = last r a) by (clear; induction r as [|x r IH]; intros a c; [reflexivity|]; change (last (a :: x :: r) c) with (last (x :: r) c); rewrite (IH x c), (IH x a); reflexivity). rewrite Q. auto.
  Qed.
  Lemma fall_last (Es : list t) : forall E0 : N, falling E0 Es -> le N (last (map (fun E => dv E []) Es) E0) E0.
  Proof.
    induction Es as [|E1 Es IH]; intros E0; [intros _; apply le_refl|]. intros (A & B). apply le_trans with (dv E1 []); [|exact A]. replace (last _ E0) with (last (map (fun E => dv E []) Es) (dv E1 [])); [apply IH, B|].
    cbn [map]. generalize (dv E1 []). clear. induction (map (fun E : t => dv E []) Es) as [|a r IH]; intros d; [reflexivity|]. cbn [last] in *. destruct r; [reflexivity|]. apply IH.
  Qed.
End Falling.

Section R.
  Context {G : abgroup} {N : numeric} {W : weights}.
  Variable imax : nat.
  Notation bt := (btensor G N).
  Notation d := (dense N).
  Notation tl := (@blegs G N).
  Notation dual := (@bdual G).
  Notation den := (@stored G N imax).
  Notation bsz := (@bsz G).
  Notation fit := (mps_fit tl dual).
  Notation ofit := (mpo_fit tl dual).
  Notation leg := (list nat * list G)%type.
  Notation tdot := (@tensordot G N imax).
  Notation rules := (fun l : list bt => qprod G (map (@b_rule G N) l)).
  Notation phys := (map (fun A : bt => nth 1 (tl A) (bk0 G))).
  Variable eps : N.
  Variable gtb : N -> N -> bool.
  Variable lower : N -> N.
  Variable wt : N -> W.
  Variable dsvd : d -> d * d * d.
  Variable thr : W.
  Variables mn mx : Z.
  Hypothesis Peps : le N rz eps.
  Hypothesis Zeps : eps <> rz.
  Hypothesis HO : total_order gtb.
  Hypothesis low : forall x, gtb x rz = true -> gtb x (lower x) = true.
  Hypothesis low0 : lower rz = rz.
  Hypothesis Hmn : (1 <= mn <= mx)%Z.
  Notation vals := (fun M => snd (fst (dsvd M))).
  Hypothesis H_thin : forall M, (exists m n, dsh M = [m; n]) -> thin M (dsvd M) /\ real_entries (vals M) /\ SpecBTrunc.descending gtb (entries (vals M)) /\ forall x, In x (entries (vals M)) -> gtb rz x = false.
  Hypothesis Hwt : forall l, wgtb (total wt l) thr = true <-> exists v, In v l /\ v <> rz.
  Variables (hs hs2 : list bt) (Dhs : list d) (l e : bt) (Dl De : d) (x o x' o' : leg) (ps : list leg) (R : G).
  Hypothesis Hhs : Forall2 den hs Dhs.
  Hypothesis (Hl : den l Dl) (He : den e De).
  Hypothesis Sl : tl l = [x; o; dual x].
  Hypothesis Se : tl e = [dual x'; dual o'; x'].
  Hypothesis H2 : compute_2sites_hamil tdot b_perm hs = Ok hs2.
  Hypothesis HQ : qop G (b_rule l) (qop G (rules hs) (b_rule e)) = qe G.
  Hypothesis HC : hermitian_chain Dhs Dl De (map bsz ps).
  Notation L := (length hs).
  Notation lstep := (compute_left_env tdot (@conj G N)).
  Notation rstep := (compute_right_env tdot (@conj G N)).
  Notation site_up := (b_site_update imax eps gtb lower wt dsvd thr mn mx).
  Notation step1 := (update_at lstep rstep site_up hs hs2).
  Notation inv := (binv imax hs l e x o x' o' ps R).
  Notation en := (chain_energy Dhs Dl De).

  Ltac dist := repeat (constructor; [cbn; intuition congruence|]); constructor.

  (** Dense forms, isometries on both sides of the pair, norm. *)
  Definition einv (p : nat) (s : dst bt bt) (Ds : list d) : Prop :=
    Forall2 den (d_sites s) Ds /\ Forall (@left_isometry N) (firstn p Ds) /\ Forall (@right_isometry N) (skipn (p + 2) Ds) /\ chain_norm Ds (bsz x) (bsz x') = ro.

  Lemma phys_sizes (a : list bt) Da : Forall2 den a Da -> map (@size N 1) Da = map bsz (phys a).
  Proof. induction 1 as [|A D a Da HA HF IH]; [reflexivity|]. cbn [map]. f_equal; [|exact IH]. unfold size. rewrite (stored_shape HA). apply (map_nth bsz (tl A) (bk0 G) 1). Qed.

  Lemma bstep_go p s step q Ds : inv p s -> einv p s Ds -> bdir_ok hs p step q -> step_fine imax eps gtb dsvd mx hs l e (d_sites s) p -> improvable_at eps Dhs Dl De Ds p ->
    exists s' E DE Ds', step1 s step = Some (Ok (s', E)) /\ inv q s' /\ einv q s' Ds' /\ sc0 N imax E DE /\ en Ds' = dv DE [] /\ le N (dv DE []) (en Ds) /\ gauge (centre_after p step) Ds'.
  Proof.
    intros I (HDs & IL & IR & HN) D SF IM. pose proof D as (Eq & Hstep & Hq).
    destruct (binv_parts eps gtb lower wt dsvd Hhs Hl He Sl Se H2 HQ I) as (a & a' & h & h' & y & r & k & r' & y' & c & m & c' & Le & Re & Hh & (Es & Eh) & (L1 & L2 & LL) & (Na & Na' & Nh & Nh') & (Ta & Ta' & Th & Th') & (Fl & Fr & Ol & Or) & (NL & NR & NH) & (WL & WR & WH) & (TL & TR & TH) & CV & Dx1 & Dx2 & DL & DR & DH & _ & _ & HDL & HDR & HDH).
    pose proof I as (Ep & Hp & F & O & _ & Ps & _).
    pose proof (den_length N HDs) as LD. pose proof (den_length N Hhs) as LDh.
    destruct (@split_pair _ Ds p) as (Da & Da' & NDa & NDa' & EDs); [lia|]. destruct (@split_pair _ Dhs p) as (Dh & Dh' & NDh & NDh' & EDh); [lia|].
    assert (PK : forall A B (u : list B) (v : list A) (P : B -> A -> Prop) n b a0, Forall2 P u v -> nth_error u n = Some b -> nth_error v n = Some a0 -> P b a0) by (intros A B u v P n b a0 HF N1 N2; destruct (F2_nth HF _ N1) as (b2 & N3 & Q); congruence).
    pose proof (PK _ _ _ _ _ _ _ _ HDs Na NDa) as HDa. pose proof (PK _ _ _ _ _ _ _ _ HDs Na' NDa') as HDa'. pose proof (PK _ _ _ _ _ _ _ _ Hhs Nh NDh) as HDh. pose proof (PK _ _ _ _ _ _ _ _ Hhs Nh' NDh') as HDh'.
    set (pre := firstn p (d_sites s)) in *. set (post := skipn (p + 2) (d_sites s)) in *. set (hpre := firstn p hs) in *. set (hpost := skipn (p + 2) hs) in *.
    set (Dpre := firstn p Ds) in *. set (Dpost := skipn (p + 2) Ds) in *. set (Dhpre := firstn p Dhs) in *. set (Dhpost := skipn (p + 2) Dhs) in *.
    assert (HPre : Forall2 den pre Dpre) by (apply F2_firstn; exact HDs). assert (HPost : Forall2 den post Dpost) by (apply F2_skipn; exact HDs).
    assert (HHPre : Forall2 den hpre Dhpre) by (apply F2_firstn; exact Hhs). assert (HHPost : Forall2 den hpost Dhpost) by (apply F2_skipn; exact Hhs).
    destruct (@stored_tdot_rule G N imax a a' Da Da' [2] [0] HDa HDa') as (st & ES & TS & HS & RS); try (rewrite ?Ta, ?Ta'; solve [intros ? [<-|[]]; cbn; lia | cbn; lia | dist | reflexivity | cbn; rewrite ?bdual_dual; reflexivity]).
    rewrite Ta, Ta' in TS. change (tl st = [dual y; r; r'; y']) in TS. fold (merge tdot a a') in ES.
    destruct (@sim_h2s G N imax Le Hh Re DL DH DR y r r' y' c c' HDL HDH HDR TL TH TR CV st _ HS TS) as (P & DP & EP & _).
    destruct (SF pre a a' post hpre h h' hpost Le Re Hh st y r k r' y') as ((C1 & C2 & C3) & C4 & C5); try assumption; [repeat split; assumption|].
    destruct (@bchain_ok G N W imax eps gtb lower wt dsvd thr mn mx Peps Zeps HO low low0 Hmn H_thin (step =? 1)%Z pre a a' post hpre h h' hpost l e Le Hh Re st P Dpre Da Da' Dpost Dhpre Dh Dh' Dhpost Dl De x o x' o' y r k r' y')
      as (Et & b & b' & k' & DEt & Db & Db' & EB & (HDE & HDb & HDb') & (TE & Tb & Tb') & FN & (Rb & Rb') & BK & NB & _ & LEe & EX); try assumption.
    { congruence. } { rewrite <- Es. exact F. } { rewrite <- Es, <- Eh. exact O. } { apply C4, EP. }
    { rewrite <- EDs, <- EDh, (phys_sizes HDs), Ps. exact HC. } { rewrite <- EDs. exact HN. }
    { assert (Q := IM Dpre Da Da' Dpost Dhpre Dh Dh' Dhpost). unfold size in Q. rewrite (stored_shape HDa), (stored_shape HDa'), Ta, Ta' in Q. cbn [map nth] in Q. rewrite sizes_dual in Q. apply Q. split; [exact EDs|]. split; [exact EDh|]. split; apply firstn_length_le; lia. }
    { intros E0 U DU M EU HU TU. apply (C5 E0 U DU EU HU TU). } { intros E0 U DU u v w z EU HU TU NU. apply (C5 E0 U DU EU HU TU), NU. }
    destruct (EX Hwt C3) as (EE & ISO).
    assert (IS : if (step =? 1)%Z then left_isometry Db else right_isometry Db') by (apply ISO; intros E0 U DU z EU HU TU NU; apply (C5 E0 U DU EU HU TU), NU). clear ISO EX.
    assert (SE : sc0 N imax Et DEt).
    { split; [exact HDE|]. split; [exact TE|]. revert EB. unfold b_site_update, site_update. rewrite ES. cbn [obind]. destruct (b_update imax eps st Hh Le Re) as [[Et' U]| |] eqn:EU; cbn [obind fst snd]; try discriminate.
      destruct (svd_trunc _ _ _ _ _ _ _ _ _) as [[[[u w] v]| |]|]; cbn [obind]; try discriminate. intros EB. assert (Et = Et').
      { injection EB as Q. destruct (b_unit_norm w) as [w1| |]; cbn [rbind] in Q; try discriminate. destruct (step =? 1)%Z.
        - destruct (b_mul_ v w1) as [v1| |]; cbn [rbind] in Q; try discriminate. destruct (b_perm _ _) as [v2| |]; cbn [rbind] in Q; try discriminate. congruence.
        - destruct (b_mul_ u w1) as [v1| |]; cbn [rbind] in Q; try discriminate. destruct (b_perm _ _) as [v2| |]; cbn [rbind] in Q; try discriminate. congruence. }
      subst Et'.
      destruct (@any_update G N imax Le Hh Re DL DH DR y r r' y' c c' HDL HDH HDR TL TH TR CV eps st _ HS TS Et U EU) as (DE1 & DU & (_ & _ & Q) & _). exact Q. }
    destruct (@bafter G N W imax eps gtb lower wt dsvd thr mn mx hs hs2 Dhs l e Dl De x o x' o' ps R Hhs Hl He Sl Se H2 HQ p s step q a a' Le Re Hh Et b b' I D Na Na' NL NR NH EB (den_well N HDb) (den_well N HDb')) as (s1 & E1 & I1 & S1).
    { intros y1 r1 k1 r1' y1' T1 T1'. rewrite Ta in T1. rewrite Ta' in T1'.
      assert (Q1 : y1 = y) by (rewrite <- (bdual_dual G y1), <- (bdual_dual G y); f_equal; exact (eq_sym (f_equal (fun v => nth 0 v (bk0 G)) T1))).
      pose proof (f_equal (fun v => nth 1 v (bk0 G)) T1) as Q2. pose proof (f_equal (fun v => nth 1 v (bk0 G)) T1') as Q3. pose proof (f_equal (fun v => nth 2 v (bk0 G)) T1') as Q4. cbn [nth] in Q2, Q3, Q4. subst y1 r1 r1' y1'. eauto. }
    { rewrite Rb, Rb'. apply qop_e_r. }
    exists s1, Et, DEt, (Dpre ++ [Db; Db'] ++ Dpost). split; [exact E1|]. split; [exact I1|]. split; [|split; [exact SE|]].
    - fold pre post in S1. assert (LP : length Dpre = p) by (apply firstn_length_le; lia). split; [rewrite S1; apply Forall2_app; [exact HPre|]; apply Forall2_app; [auto|exact HPost]|].
      destruct (step =? 1)%Z eqn:QS.
      + apply Z.eqb_eq in QS. assert (q = p + 1) by lia. subst q. split; [|split; [|exact NB]].
        * replace (p + 1) with (length (Dpre ++ [Db])) by (rewrite app_length, LP; cbn; lia). change (Dpre ++ [Db; Db'] ++ Dpost) with (Dpre ++ [Db] ++ (Db' :: Dpost)). rewrite app_assoc, firstn_app, Nat.sub_diag, firstn_all. cbn [firstn]. rewrite app_nil_r. apply Forall_app. auto.
        * replace (p + 1 + 2) with (length (Dpre ++ [Db; Db']) + 1) by (rewrite app_length, LP; cbn; lia). rewrite app_assoc, skipn_mid. destruct Dpost; [constructor|]. cbn. inversion IR; assumption.
      + apply Z.eqb_neq in QS. assert (Hqp : q = p \/ q + 1 = p) by lia. split; [|split; [|exact NB]].
        * rewrite firstn_mid by lia. apply Forall_forall. intros A HA. rewrite Forall_forall in IL. apply IL. rewrite <- (firstn_skipn q Dpre). apply in_or_app. auto.
        * destruct Hqp as [-> | <-].
          -- replace (p + 2) with (length (Dpre ++ [Db; Db']) + 0) by (rewrite app_length, LP; cbn; lia). rewrite app_assoc, skipn_mid. exact IR.
          -- replace (q + 2) with (length (Dpre ++ [Db]) + 0) by (rewrite app_length, LP; cbn; lia). change (Dpre ++ [Db; Db'] ++ Dpost) with (Dpre ++ [Db] ++ (Db' :: Dpost)). rewrite app_assoc, skipn_mid. cbn. auto.
    - unfold chain_energy. rewrite EDh. fold Dhpre Dhpost. split; [exact EE|]. split; [rewrite EDs; exact LEe|].
      assert (LP : length Dpre = p) by (apply firstn_length_le; lia). unfold gauge, centre_after. destruct (step =? 1)%Z.
      + split; [replace (p + 1) with (length (Dpre ++ [Db])) by (rewrite app_length, LP; cbn; lia)|replace (p + 1 + 1) with (length (Dpre ++ [Db; Db']) + 0) by (rewrite app_length, LP; cbn; lia)].
        * change (Dpre ++ [Db; Db'] ++ Dpost) with (Dpre ++ [Db] ++ (Db' :: Dpost)). rewrite app_assoc, firstn_app, Nat.sub_diag, firstn_all. cbn [firstn]. rewrite app_nil_r. apply Forall_app. auto.
        * rewrite app_assoc, skipn_mid. exact IR.
      + split; [rewrite firstn_mid by lia; rewrite <- LP at 1; rewrite firstn_all; exact IL|].
        replace (p + 1) with (length (Dpre ++ [Db]) + 0) by (rewrite app_length, LP; cbn; lia). change (Dpre ++ [Db; Db'] ++ Dpost) with (Dpre ++ [Db] ++ (Db' :: Dpost)). rewrite app_assoc, skipn_mid. cbn. auto.
  Qed.
End R.

Section Main.
  Context {G : abgroup} {N : numeric} {W : weights}.
  Variable last_first : bool.
  Variable imax : nat.
  Notation bt := (btensor G N).
  Notation d := (dense N).
  Notation tl := (@blegs G N).
  Notation dual := (@bdual G).
  Notation den := (@stored G N imax).
  Notation bsz := (@bsz G).
  Notation fit := (mps_fit tl dual).
  Notation ofit := (mpo_fit tl dual).
  Notation leg := (list nat * list G)%type.
  Notation tdot := (@tensordot G N imax).
  Notation rules := (fun l : list bt => qprod G (map (@b_rule G N) l)).
  Notation phys := (map (fun A : bt => nth 1 (tl A) (bk0 G))).
  Variables eps e_init crit : N.
  Variable gtb : N -> N -> bool.
  Variable lower : N -> N.
  Variable wt : N -> W.
  Variable dsvd : d -> d * d * d.
  Variable thr : W.
  Variables mn mx : Z.
  Variable undef : bt.
  Hypothesis Peps : le N rz eps.
  Hypothesis Zeps : eps <> rz.
  Hypothesis HO : total_order gtb.
  Hypothesis low : forall x, gtb x rz = true -> gtb x (lower x) = true.
  Hypothesis low0 : lower rz = rz.
  Hypothesis Hmn : (1 <= mn <= mx)%Z.
  Notation vals := (fun M => snd (fst (dsvd M))).
  Hypothesis H_thin : forall M, (exists m n, dsh M = [m; n]) -> thin M (dsvd M) /\ real_entries (vals M) /\ SpecBTrunc.descending gtb (entries (vals M)) /\ forall x, In x (entries (vals M)) -> gtb rz x = false.
  Hypothesis Hwt : forall l, wgtb (total wt l) thr = true <-> exists v, In v l /\ v <> rz.
  Variables (hs sites : list bt) (Dhs Ds : list d) (x o x' o' : leg) (oc max_iter : nat).
  Notation L := (length hs).
  Hypothesis HL : 2 <= L.
  Hypothesis Ho : oc < L.
  Hypothesis HDs : Forall2 den sites Ds.
  Hypothesis HDh : Forall2 den hs Dhs.
  Hypothesis Fs : fit sites x x'.
  Hypothesis Os : ofit hs sites sites o o'.
  Notation p0 := (start_pos (length sites) oc).
  Notation reach := (b_reached last_first imax eps gtb lower wt dsvd thr mn mx undef hs sites oc).
  Notation run := (b_dmrg last_first imax eps e_init crit gtb lower wt dsvd thr mn mx undef max_iter hs sites oc).
  Notation total := (max_iter * sweep_size (length sites)).
  Variables (l e : bt) (Dl De : d).
  Hypothesis (Re : run_edges last_first hs sites l e) (HDl : den l Dl) (HDe : den e De) (Sl : tl l = [x; o; dual x]) (Se : tl e = [dual x'; dual o'; x']).
  Hypothesis HQ : qop G (b_rule l) (qop G (rules hs) (b_rule e)) = qe G.
  Hypothesis HC : hermitian_chain Dhs Dl De (map (@size N 1) Ds).
  Hypothesis Cs : canonical Ds oc.
  Hypothesis N1 : chain_norm Ds (bsz x) (bsz x') = ro.
  Notation inv := (binv imax hs l e x o x' o' (phys sites) (rules sites)).
  Notation einv' := (einv imax x x').
  Hypothesis Hst : forall k s Es p Dk, k < total -> reach k s Es -> inv p s -> einv' p s Dk -> step_fine imax eps gtb dsvd mx hs l e (d_sites s) p /\ improvable_at eps Dhs Dl De Dk p.
  Notation en := (chain_energy Dhs Dl De).

  Lemma estart env : einv' p0 (mkDst sites env (Z.of_nat p0)) Ds.
  Proof.
    pose proof (bofit_len _ _ _ _ _ Os) as LS. symmetry in LS. destruct (canonical_gauge Cs) as (GL & GR).
    assert (Hp : p0 + 2 <= L /\ p0 <= oc /\ oc <= p0 + 1 /\ (oc = p0 \/ p0 + 2 = L)) by (unfold start_pos; rewrite LS; destruct (Nat.eqb_spec oc (L - 1)); lia). destruct Hp as (P1 & P2 & P3 & P4).
    split; [exact HDs|]. split; [|split; [|exact N1]].
    - replace p0 with (Nat.min p0 oc) by lia. rewrite <- firstn_firstn. apply Forall_forall. intros A HA. rewrite Forall_forall in GL. apply GL. rewrite <- (firstn_skipn p0 (firstn oc Ds)). apply in_or_app. left. exact HA.
    - destruct P4 as [Q | Q]; [|rewrite skipn_all2 by (rewrite <- (den_length N HDs); lia); constructor]. replace (p0 + 2) with (oc + 1 + 1) by lia. rewrite <- (@skipn_skipn' _ 1 (oc + 1)). destruct (skipn (oc + 1) Ds) as [|b r]; [constructor|]. inversion GR; assumption.
  Qed.

  Definition track (n ph : nat) (s : dst bt bt) (step : Z) (Es : list bt) : Prop :=
    exists p Dk DEs, inv p s /\ einv' p s Dk /\ at_phase (L - 1) (nxs (L - 1) n ph) p step /\ Forall2 (sc0 N imax) Es DEs /\ falling (en Ds) DEs /\ en Dk = last (map (fun E => dv E []) DEs) (en Ds) /\
      (n = 0 \/ exists p1 st1, at_phase (L - 1) (nxs (L - 1) (n - 1) ph) p1 st1 /\ gauge (centre_after p1 st1) Dk).
  Lemma erun env hs2 ph : b_generate_env last_first imax undef hs sites oc = Ok env -> compute_2sites_hamil tdot b_perm hs = Ok hs2 -> inv p0 (mkDst sites env (Z.of_nat p0)) -> at_phase (L - 1) ph p0 (start_step L oc) ->
    forall n, n <= total -> exists s step Es, b_updates imax eps gtb lower wt dsvd thr mn mx hs hs2 n (mkDst sites env (Z.of_nat p0)) (start_step L oc) (Z.of_nat L - 2) = Some (Ok (s, step, Es)) /\ track n ph s step Es.
  Proof.
    intros E1 E2 I0 J0. pose proof (bofit_len _ _ _ _ _ Os) as LS.
    induction n as [|n IH]; intros HB.
    - exists (mkDst sites env (Z.of_nat p0)), (start_step L oc), []. split; [reflexivity|]. exists p0, Ds, []. split; [exact I0|]. split; [apply estart|]. repeat split; auto.
    - destruct IH as (s1 & st1 & Es & U1 & p & Dk & DEs & I1 & V1 & J1 & HE & FE & EN & _); [lia|]. pose proof I1 as (Ep & Hp & _). destruct (phase_step J1) as (q & Hq & Hs & HqM & J2).
      assert (D : bdir_ok hs p st1 q) by (split; [exact Hq|]; split; [exact Hs|lia]).
      assert (RR : reach n s1 Es) by (exists env, hs2, st1; split; [exact E1|]; split; [exact E2|]; rewrite <- U1, LS; reflexivity).
      destruct (@bstep_go G N W imax eps gtb lower wt dsvd thr mn mx Peps Zeps HO low low0 Hmn H_thin Hwt hs hs2 Dhs l e Dl De x o x' o' (phys sites) (rules sites) HDh HDl HDe Sl Se E2 HQ) with (p := p) (s := s1) (step := st1) (q := q) (Ds := Dk)
        as (s2 & E & DE & Dn & UE & I2 & V2 & SE & EE & LEe & GA); try assumption.
      { rewrite <- (phys_sizes HDs). exact HC. } { apply (@Hst n s1 Es p Dk HB RR I1 V1). } { apply (@Hst n s1 Es p Dk HB RR I1 V1). }
      exists s2, (turn (Z.of_nat L - 2) st1 (d_oc s2)), (Es ++ [E]). split.
      + unfold b_updates. rewrite updates_snoc. fold (b_updates imax eps gtb lower wt dsvd thr mn mx hs hs2). rewrite U1. cbn [obind]. rewrite UE. reflexivity.
      + exists q, Dn, (DEs ++ [DE]). split; [exact I2|]. split; [exact V2|]. split; [cbn [nxs]; pose proof I2 as (-> & _); replace (Z.of_nat L - 2)%Z with (Z.of_nat (L - 1) - 1)%Z by lia; exact J2|].
        split; [apply Forall2_app; auto|]. split; [apply fall_snoc; [exact FE|rewrite <- EN; exact LEe]|]. split; [rewrite map_app; cbn [map]; rewrite last_last; exact EE|]. right. exists p, st1. cbn [Nat.sub]. rewrite Nat.sub_0_r. split; [exact J1|exact GA].
  Qed.

  (** States that a run reaches. *)
  Lemma reach_inv k s Es : k <= total -> reach k s Es -> exists p Dk, inv p s /\ einv' p s Dk.
  Proof.
    intros Hk (env & hs2 & step & E1 & E2 & U). pose proof (bofit_len _ _ _ _ _ Os) as LS.
    assert (Ws : Forall (well imax) sites) by (eapply dens_well; exact HDs). assert (Wh : Forall (well imax) hs) by (eapply dens_well; exact HDh).
    assert (HT : forall M, (exists m n, dsh M = [m; n]) -> thin M (dsvd M) /\ SpecBTrunc.descending gtb (entries (vals M)) /\ forall x, In x (entries (vals M)) -> gtb rz x = false) by (intros M HM; destruct (H_thin M HM) as (T1 & _ & T2); split; assumption).
    destruct (@bstart G N W last_first imax crit gtb lower wt dsvd undef low HT hs sites x o x' o' oc max_iter HL Ho Ws Wh Fs Os l e Dl De Re HDl HDe Sl Se) as (env' & hs2' & E1' & E2' & I). rewrite E1 in E1'. rewrite E2 in E2'. injection E1' as <-. injection E2' as <-.
    destruct (@start_phase L oc HL Ho) as (ph & J). assert (RG := @erun env hs2 ph E1 E2). rewrite <- LS in RG, I, U, Hk. destruct (RG I J k Hk) as (s' & st' & Es' & U' & p & Dk & DEs & I1 & V1 & _). unfold b_updates in *. rewrite U in U'. injection U' as <- <- <-. eauto.
  Qed.
  Lemma conv_ok (E E' : bt) : (exists D, sc0 N imax E D) -> (exists D, sc0 N imax E' D) -> exists b, b_converged crit E E' = Ok b.
  Proof.
    intros (D & H1) (D' & H2). destruct (x_of_sc0 H1) as (v & Q1). destruct (x_of_sc0 H2) as (v' & Q2). unfold b_converged. rewrite Q1, Q2. cbn [rbind]. unfold minus, x_add. cbn [fst]. rewrite qeqb_refl. cbn [negb rbind]. eauto.
  Qed.

  Theorem brun_energy : 1 <= max_iter -> exists E DE sites' Ds', run = Some (Ok (E, sites', Z.of_nat p0)) /\ den E DE /\ tl E = [] /\ Forall2 den sites' Ds' /\
    dv DE [] = en Ds' /\ le N (dv DE []) (en Ds) /\ chain_norm Ds' (bsz x) (bsz x') = ro /\ canonical Ds' (b_final_centre (length sites) oc) /\
    exists k s Es DEs, 1 <= k <= total /\ reach k s Es /\ Forall2 den Es DEs /\ falling (en Ds) DEs /\ E = last Es E.
  Proof.
    intros Hiter. pose proof (bofit_len _ _ _ _ _ Os) as LS.
    assert (Ws : Forall (well imax) sites) by (eapply dens_well; exact HDs). assert (Wh : Forall (well imax) hs) by (eapply dens_well; exact HDh).
    assert (HT : forall M, (exists m n, dsh M = [m; n]) -> thin M (dsvd M) /\ SpecBTrunc.descending gtb (entries (vals M)) /\ forall x, In x (entries (vals M)) -> gtb rz x = false) by (intros M HM; destruct (H_thin M HM) as (T1 & _ & T2); split; assumption).
    destruct (@bstart G N W last_first imax crit gtb lower wt dsvd undef low HT hs sites x o x' o' oc max_iter HL Ho Ws Wh Fs Os l e Dl De Re HDl HDe Sl Se) as (env & hs2 & E1 & E2 & I). destruct (@start_phase L oc HL Ho) as (ph & J).
    unfold b_dmrg. rewrite E1. cbn [obind]. rewrite E2. cbn [obind]. unfold b_dmrg_impl.
    assert (RG := @erun env hs2 ph E1 E2). rewrite <- LS in RG, I |- *. specialize (RG I J).
    destruct (@sweeps_go bt (compute_left_env tdot (@conj G N)) (compute_right_env tdot (@conj G N)) (b_site_update imax eps gtb lower wt dsvd thr mn mx) hs hs2 (b_converged crit) (Z.of_nat L - 2) (sweep_size L) (fun E => exists D, sc0 N imax E D) max_iter
      (b_e0 e_init) (mkDst sites env (Z.of_nat (start_pos L oc))) (start_step L oc)) as (E & s & SW).
    { intros m Hm. destruct (RG m Hm) as (s & st & Es & U & p & Dk & DEs & _ & _ & _ & HE & _). exists s, st, Es. split; [exact U|]. clear - HE. induction HE; constructor; eauto. }
    { exists (mkD [] (fun _ => e_init)). destruct (@one_sc G N imax e_init) as (S1 & S2 & S3 & _). split; [|split; assumption]. exact S1. }
    { intros A B HA HB. apply conv_ok; assumption. }
    rewrite SW. cbn [obind]. apply sweeps_inv in SW as (j & st & Es & Hj & Hj1 & U & EE). specialize (Hj1 Hiter).
    assert (SP : 1 <= sweep_size L) by (unfold sweep_size; destruct (Nat.eqb_spec (L - 1) 1); lia).
    assert (KB : 1 <= j * sweep_size L <= max_iter * sweep_size L) by (split; [assert (1 * 1 <= j * sweep_size L) by (apply Nat.mul_le_mono; assumption); lia|apply Nat.mul_le_mono_r, Hj]).
    destruct (RG (j * sweep_size L) (proj2 KB)) as (s' & st' & Es' & U' & p & Dk & DEs & I1 & (V1 & V2 & V3 & V4) & J1 & HE & FE & EN & [Z0 | (p1 & st1 & J2 & GA)]); [lia|].
    unfold b_updates in U'. rewrite U in U'. injection U' as <- <- <-.
    assert (NF : nxs (L - 1) (j * sweep_size L) ph = ph) by (apply (nxs_full j J)). rewrite NF in J1. destruct (phase_fun J J1) as (<- & <-). pose proof I1 as (Q1 & _). rewrite Q1, Z.eqb_refl.
    assert (NE : Es <> []).
    { intros ->. destruct (j * sweep_size L) as [|n] eqn:QN; [lia|]. apply snoc_inv in U as (? & ? & l1 & E3 & _ & _ & _ & Q3). destruct l1; discriminate. }
    destruct Es as [|E0 Es _] using rev_ind; [congruence|]. rewrite last_last in EE. subst E0. apply Forall2_app_inv_l in HE as (D1 & D2 & HE1 & HE2 & ->). inversion HE2 as [|? DE ? ? HE HN]; subst. inversion HN; subst. clear HE2 HN. pose proof HE as (HDE & TE & _).
    rewrite map_app in EN. cbn [map] in EN. rewrite last_last in EN.
    exists E, DE, (d_sites s), Dk. split; [reflexivity|]. split; [exact HDE|]. split; [exact TE|]. split; [exact V1|]. split; [symmetry; exact EN|].
    split; [pose proof (fall_last _ _ FE) as Q; rewrite map_app in Q; cbn [map] in Q; rewrite last_last in Q; exact Q|]. split; [exact V4|]. split.
    - apply gauge_canonical. replace (b_final_centre L oc) with (centre_after p1 st1); [exact GA|].
      assert (J3 : at_phase (L - 1) (nx (L - 1) (nxs (L - 1) (j * sweep_size L - 1) ph)) (start_pos L oc) (start_step L oc)).
      { replace (nx (L - 1) (nxs (L - 1) (j * sweep_size L - 1) ph)) with (nxs (L - 1) (S (j * sweep_size L - 1)) ph) by reflexivity. replace (S (j * sweep_size L - 1)) with (j * sweep_size L) by lia. rewrite NF. exact J. }
      rewrite (centre_prev J2 J3); [unfold b_final_centre; replace (L - 1 - 1) with (L - 2) by lia; reflexivity|]. unfold start_pos, start_step. destruct (Nat.eqb_spec (L - 1) 1), (Nat.eqb_spec oc (L - 1)), (Nat.eqb_spec oc 0); intros; try reflexivity; lia.
    - exists (j * sweep_size L), s, (Es ++ [E]), (D1 ++ [DE]). split; [exact KB|]. split; [exists env, hs2, (start_step L oc); rewrite <- LS; auto|]. split; [|split; [exact FE|rewrite last_last; reflexivity]].
      apply Forall2_app; [|auto]. clear - HE1. induction HE1 as [|? ? ? ? (H & _)]; constructor; auto.
  Qed.
End Main.

Theorem run_energy : forall (G : abgroup) (N : numeric) (W : weights) (last_first : bool) (imax : nat) (eps e_init crit : N) (gtb : N -> N -> bool) (lower : N -> N) (wt : N -> W)
    (dsvd : dense N -> dense N * dense N * dense N) (thr : W) (mn mx : Z) (undef : btensor G N) (hs sites : list (btensor G N)) (Dhs Ds : list (dense N)) (x o x' o' : list nat * list G) (cx cx' co co' : G) (oc max_iter : nat),
  let Dl := @d_full N [bsz G x; bsz G o; bsz G x] ro in let De := @d_full N [bsz G x'; bsz G o'; bsz G x'] ro in
  let steps := max_iter * sweep_size (length sites) in
  le N rz eps -> eps <> rz -> total_order gtb -> (forall v, gtb v rz = true -> gtb v (lower v) = true) -> lower rz = rz -> (1 <= mn <= mx)%Z ->
  (forall M, (exists m n, dsh M = [m; n]) -> thin M (dsvd M) /\ real_entries (snd (fst (dsvd M))) /\ SpecBTrunc.descending gtb (entries (snd (fst (dsvd M)))) /\ forall v, In v (entries (snd (fst (dsvd M)))) -> gtb rz v = false) ->
  (forall v, wgtb (total wt v) thr = true <-> exists y, In y v /\ y <> rz) ->
  2 <= length hs -> oc < length hs -> Forall2 (stored imax) sites Ds -> Forall2 (stored imax) hs Dhs -> Forall nonempty (sites ++ hs) ->
  mps_fit (@blegs G N) (bdual G) sites x x' -> mpo_fit (@blegs G N) (bdual G) hs sites sites o o' ->
  carries_only x cx -> carries_only x' cx' -> carries_only o co -> carries_only o' co' -> order_ok last_first co = true -> order_ok last_first co' = true ->
  qop G co (qprod G (map (@b_rule G N) hs)) = co' ->
  hermitian_chain Dhs Dl De (map (size 1) Ds) -> canonical Ds oc -> chain_norm Ds (bsz G x) (bsz G x') = ro -> 1 <= max_iter ->
  (forall l e k s Es p, run_edges last_first hs sites l e -> k < steps -> b_reached last_first imax eps gtb lower wt dsvd thr mn mx undef hs sites oc k s Es -> d_oc s = Z.of_nat p ->
    step_fine imax eps gtb dsvd mx hs l e (d_sites s) p) ->
  (forall k s Es p Dk, k < steps -> b_reached last_first imax eps gtb lower wt dsvd thr mn mx undef hs sites oc k s Es -> d_oc s = Z.of_nat p ->
    Forall2 (stored imax) (d_sites s) Dk -> chain_norm Dk (bsz G x) (bsz G x') = ro -> improvable_at eps Dhs Dl De Dk p) ->
  exists E DE sites' Ds', b_dmrg last_first imax eps e_init crit gtb lower wt dsvd thr mn mx undef max_iter hs sites oc = Some (Ok (E, sites', Z.of_nat (start_pos (length sites) oc))) /\
    stored imax E DE /\ blegs E = [] /\ Forall2 (stored imax) sites' Ds' /\
    dv DE [] = chain_energy Dhs Dl De Ds' /\ le N (dv DE []) (chain_energy Dhs Dl De Ds) /\ chain_norm Ds' (bsz G x) (bsz G x') = ro /\ canonical Ds' (b_final_centre (length sites) oc) /\
    exists k s Es DEs, 1 <= k <= steps /\ b_reached last_first imax eps gtb lower wt dsvd thr mn mx undef hs sites oc k s Es /\ Forall2 (stored imax) Es DEs /\ falling (chain_energy Dhs Dl De Ds) DEs /\ E = last Es E.
Proof.
  intros G N W last_first imax eps e_init crit gtb lower wt dsvd thr mn mx undef hs sites Dhs Ds x o x' o' cx cx' co co' oc max_iter Dl De steps Pe Ze HO low low0 Hmn HT Hwt HL Ho HDs HDh Ne Fs Os Cx Cx' Co Co' Or Or' HR HC Cs N1 Hi Hf Him.
  assert (Ws : Forall (well imax) sites) by (eapply dens_well; exact HDs). assert (Wh : Forall (well imax) hs) by (eapply dens_well; exact HDh).
  destruct (@bedges G N last_first imax hs sites x o x' o' cx cx' co co' HL Ws Wh Fs Os Cx Cx' Co Co' Ne Or Or' HR) as (l & e & Dl' & De' & RE & HDl & HDe & (-> & ->) & Sl & Se & HQ).
  apply (@brun_energy G N W last_first imax eps e_init crit gtb lower wt dsvd thr mn mx undef Pe Ze HO low low0 Hmn HT Hwt hs sites Dhs Ds x o x' o' oc max_iter HL Ho HDs HDh Fs Os l e Dl De RE HDl HDe Sl Se HQ HC Cs N1); [|exact Hi].
  intros k s Es p Dk Hk HR' (Ep & _) (V1 & _ & _ & V4). split; [exact (Hf l e k s Es p RE Hk HR' Ep)|exact (Him k s Es p Dk Hk HR' Ep V1 V4)].
Qed.
