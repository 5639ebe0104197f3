(** A whole run of DMRG on dense tensors. *)
From Verif Require Import Base Ring Index SpecIndex Dense IndexProofs BTensor BTensorArith Bcast Tensordot SpecTensordot Chain SpecChain ChainProofs ChainThms ChainInst ChainEnd
  SpecMove SpecSvd SvdDense MoveOc MoveProofs MoveInst Truncate SpecTruncate TruncateProofs BSvd BTrunc Num Lanczos SpecLanczos LanczosVec LanczosProofs SiteUpdate SpecSiteUpdate ChainNorm ChainEnergy SiteUpdateProofs SiteUpdateThms
  View SpecView Edges SpecEdges EdgesProofs MoveEx Dmrg DmrgProofs DmrgRun SpecDmrgRun DmrgRunProofs.
Set Implicit Arguments.

(** * Loops *)
Section Loops.
  Variable T : Type.
  Variables lenv renv : T -> T -> T -> result T.
  Variable upd2 : bool -> T -> T -> T -> T -> T -> option (result (T * T * T)).
  Variables hs hs2 : list T.
  Notation ups := (updates lenv renv upd2 hs hs2).
  Notation one := (update_at lenv renv upd2 hs hs2).
  Definition turn (re : Z) (step oc : Z) : Z := (step * (1 - 2 * (if (oc =? 0) || (oc =? re) then 1 else 0)))%Z.
  Lemma updates_app m re : forall n s step, ups (n + m) s step re =
    obind (ups n s step re) (fun x => let '(s', step', l) := x in obind (ups m s' step' re) (fun y => let '(s'', step'', l') := y in Some (Ok (s'', step'', l ++ l')))).
  Proof.
    induction n as [|n IH]; intros s step; cbn [Nat.add updates obind app].
    - destruct (ups m s step re) as [[[[s'' st''] l']| |]|]; reflexivity.
    - destruct (one s step) as [[[s' E]| |]|]; cbn [obind]; try reflexivity. rewrite IH. destruct (ups n s' _ re) as [[[[s1 st1] l1]| |]|]; cbn [obind]; try reflexivity.
      destruct (ups m s1 st1 re) as [[[[s2 st2] l2]| |]|]; reflexivity.
  Qed.
  Lemma updates_snoc n s step re : ups (S n) s step re =
    obind (ups n s step re) (fun x => let '(s1, step1, l) := x in obind (one s1 step1) (fun y => let '(s2, E) := y in Some (Ok (s2, turn re step1 (d_oc s2), l ++ [E])))).
  Proof.
    replace (S n) with (n + 1) by lia. rewrite updates_app. destruct (ups n s step re) as [[[[s1 st1] l1]| |]|]; cbn [obind]; try reflexivity. cbn [updates].
    destruct (one s1 st1) as [[[s2 E]| |]|]; reflexivity.
  Qed.
  Lemma snoc_inv n s step re s2 st2 l2 : ups (S n) s step re = Some (Ok (s2, st2, l2)) ->
    exists s1 st1 l1 E, ups n s step re = Some (Ok (s1, st1, l1)) /\ one s1 st1 = Some (Ok (s2, E)) /\ st2 = turn re st1 (d_oc s2) /\ l2 = l1 ++ [E].
  Proof.
    rewrite updates_snoc. destruct (ups n s step re) as [[[[s1 st1] l1]| |]|]; cbn [obind]; try discriminate.
    destruct (one s1 st1) as [[[s' E]| |]|] eqn:Q; cbn [obind]; try discriminate. intros [= <- <- <-]. exists s1, st1, l1, E. auto.
  Qed.
  Variable converged : T -> T -> result bool.
  Notation sw := (sweeps lenv renv upd2 hs hs2 converged).
  Lemma sweeps_inv re n : forall k E0 s step E s', sw k n E0 s step re = Some (Ok (E, s')) ->
    exists j step' l, j <= k /\ (1 <= k -> 1 <= j) /\ ups (j * n) s step re = Some (Ok (s', step', l)) /\ E = last l E0.
  Proof.
    induction k as [|k IH]; intros E0 s step E s'; cbn [sweeps].
    - intros [= <- <-]. exists 0, step, []. repeat split; lia.
    - destruct (ups n s step re) as [[[[s1 st1] l1]| |]|] eqn:Q; cbn [obind]; try discriminate. destruct (converged E0 (last l1 E0)) as [[|]| |]; cbn [obind]; try discriminate.
      + intros [= <- <-]. exists 1, st1, l1. rewrite Nat.mul_1_l. repeat split; auto; lia.
      + intros H. apply IH in H as (j & st & l & Hj & _ & U & ->). exists (S j), st, (l1 ++ l). split; [lia|]. split; [lia|]. cbn [Nat.mul]. rewrite updates_app, Q. cbn [obind]. rewrite U. cbn [obind]. split; [reflexivity|].
        clear. destruct l as [|y l] using rev_ind; [rewrite app_nil_r; reflexivity|]. rewrite app_assoc, !last_last. reflexivity.
  Qed.
  Lemma sweeps_go re n (P : T -> Prop) : forall k E0 s step, (forall m, m <= k * n -> exists s' st' l, ups m s step re = Some (Ok (s', st', l)) /\ Forall P l) -> P E0 ->
    (forall E E', P E -> P E' -> exists b, converged E E' = Ok b) -> exists E s', sw k n E0 s step re = Some (Ok (E, s')).
  Proof.
    induction k as [|k IH]; intros E0 s step H P0 HC; cbn [sweeps]; [eauto|].
    destruct (H n) as (s1 & st1 & l1 & U1 & F1); [cbn; lia|]. rewrite U1. cbn [obind].
    assert (P1 : P (last l1 E0)) by (destruct l1 as [|y l] using rev_ind; [exact P0|rewrite last_last; apply Forall_app in F1 as [_ F1]; inversion F1; assumption]).
    destruct (HC E0 (last l1 E0) P0 P1) as (b & Eb). rewrite Eb. cbn [obind]. destruct b; [eauto|]. apply IH; [|exact P1|exact HC].
    intros m Hm. destruct (H (n + m)) as (s2 & st2 & l2 & U2 & F2); [cbn; lia|]. rewrite updates_app, U1 in U2. cbn [obind] in U2. destruct (ups m s1 st1 re) as [[[[s' st'] l']| |]|]; cbn [obind] in U2; try discriminate.
    injection U2 as <- <- <-. apply Forall_app in F2 as [_ F2]. eauto 6.
  Qed.
End Loops.

(** * Positions *)
(** [M] pairs of neighbours; phase, position and direction. *)
Definition at_phase (M ph p : nat) (step : Z) : Prop := (M = 1 /\ ph = 0 /\ p = 0 /\ step = 0%Z) \/ (2 <= M /\ ph < 2 * (M - 1) /\ p = pos M ph /\ step = dir M ph).
Definition nx (M ph : nat) : nat := if M =? 1 then 0 else nxt M ph.
Fixpoint nxs (M n ph : nat) : nat := match n with 0 => ph | S n => nx M (nxs M n ph) end.
Lemma phase_step M ph p step : at_phase M ph p step -> exists q, (Z.of_nat q = Z.of_nat p + step)%Z /\ (step = 1 \/ step = -1 \/ step = 0)%Z /\ q < M /\ at_phase M (nx M ph) q (turn (Z.of_nat M - 1) step (Z.of_nat q)).
Proof.
  intros [(-> & -> & -> & ->) | (HM & Hp & -> & ->)].
  - exists 0. split; [reflexivity|]. split; [auto|]. split; [lia|]. left. repeat split.
  - exists (pos M (nxt M ph)). split; [apply pos_nxt; assumption|]. split; [unfold dir; destruct (ph <? M - 1); auto|]. split; [apply pos_lt; auto; apply nxt_lt; auto|]. right. unfold nx. destruct (Nat.eqb_spec M 1); [lia|].
    split; [exact HM|]. split; [apply nxt_lt; auto|]. split; [reflexivity|]. symmetry. apply dir_nxt; auto.
Qed.
Lemma nxs_phase M n ph : 2 <= M -> nxs M n ph = phase M n ph.
Proof. intros H. induction n as [|n IH]; [reflexivity|]. rewrite phase_last. cbn [nxs]. rewrite IH. unfold nx. destruct (Nat.eqb_spec M 1); [lia|reflexivity]. Qed.
Lemma nxs_full M ph p step j : at_phase M ph p step -> nxs M (j * (2 * (M - 1 + (if M =? 1 then 1 else 0)))) ph = ph.
Proof.
  intros [(-> & -> & -> & ->) | (HM & Hp & _)].
  - generalize (j * (2 * (1 - 1 + (if 1 =? 1 then 1 else 0)))). intros n. induction n as [|n IH]; [reflexivity|]. reflexivity.
  - destruct (Nat.eqb_spec M 1); [lia|]. rewrite Nat.add_0_r, nxs_phase, phase_mod by lia. rewrite Nat.mod_add by lia. apply Nat.mod_small, Hp.
Qed.
Lemma phase_fun M ph p step p' step' : at_phase M ph p step -> at_phase M ph p' step' -> p = p' /\ step = step'.
Proof. intros [(-> & -> & -> & ->) | (HM & Hp & -> & ->)] [(? & ? & -> & ->) | (HM' & Hp' & -> & ->)]; try lia; auto. Qed.

Section Run.
  Context {N : numeric} {W : weights}.
  Notation t := (dense N).
  Notation idk := (fun k : nat => k).
  Notation fit := (mps_fit (@dsh N) idk).
  Notation ofit := (mpo_fit (@dsh N) idk).
  Notation sizes := (map (@size N 1)).
  Variable eps : N.
  Variable dsvd : t -> t * t * t.
  Variable wt : N -> W.
  Variable thr : W.
  Variables mn mx : Z.
  Hypothesis H_thin : forall M, (exists m n, dsh M = [m; n]) -> thin M (dsvd M) /\ real_entries (snd (fst (dsvd M))).
  Hypothesis H_val : forall M, (exists m n, dsh M = [m; n]) -> descending (snd (fst (dsvd M))).
  Hypothesis Hmn : (1 <= mn <= mx)%Z.
  Variables (hs hs2 : list t) (l e : t) (x o x' o' : nat) (ps : list nat).
  Hypothesis Sl : dsh l = [x; o; x].
  Hypothesis Se : dsh e = [x'; o'; x'].
  Hypothesis H2 : compute_2sites_hamil t_tdot t_perm hs = Ok hs2.
  Hypothesis HC : hermitian_chain hs l e ps.
  Notation L := (length hs).
  Notation M := (L - 1).
  Notation ups := (t_updates eps dsvd wt thr mn mx hs hs2).
  Notation re := (Z.of_nat L - 2)%Z.
  Notation inv := (inv hs l e x o x' o' ps).
  Variables (s0 : dst t t) (p0 : nat) (step0 : Z) (ph0 : nat).
  Hypothesis I0 : inv p0 s0.
  Hypothesis J0 : at_phase M ph0 p0 step0.
  Hypothesis N0 : chain_norm (d_sites s0) x x' <> rz.
  Variable B : nat.
  Hypothesis G0 : forall m s st Es p, m < B -> ups m s0 step0 re = Some (Ok (s, st, Es)) -> d_oc s = Z.of_nat p -> good eps dsvd hs l e p (d_sites s).

  Lemma phase_ok ph p s step : inv p s -> at_phase M ph p step -> exists q, dir_ok hs p step q /\ at_phase M (nx M ph) q (turn re step (Z.of_nat q)).
  Proof.
    intros I J. pose proof I as (_ & HL & _). destruct (phase_step J) as (q & Hq & Hs & HqM & J'). exists q. split; [split; [exact Hq|]; split; [exact Hs|lia]|]. replace re with (Z.of_nat M - 1)%Z by lia. exact J'.
  Qed.
  Lemma run_any : forall n s step Es, n <= B -> ups n s0 step0 re = Some (Ok (s, step, Es)) ->
    exists p, inv p s /\ at_phase M (nxs M n ph0) p step /\ (n = 0 /\ s = s0 \/ 1 <= n /\ chain_norm (d_sites s) x x' = ro /\
      exists p1 step1, at_phase M (nxs M (n - 1) ph0) p1 step1 /\ gauge (centre_after p1 step1) (d_sites s)).
  Proof.
    induction n as [|n IH]; intros s step Es HB U.
    - injection U as <- <- <-. exists p0. auto.
    - apply snoc_inv in U as (s1 & st1 & l1 & E & U1 & UE & -> & ->). fold (t_updates eps dsvd wt thr mn mx hs hs2) in U1. destruct (IH _ _ _ ltac:(lia) U1) as (p & I1 & J1 & HN).
      destruct (phase_ok I1 J1) as (q & D & J2).
      destruct (@step_any N W eps dsvd wt thr mn mx H_thin H_val Hmn hs hs2 l e x o x' o' ps Sl Se H2 HC p s1 st1 q s E I1 D) as (I2 & N2 & G2).
      { apply (@G0 n s1 st1 l1 p HB U1). apply I1. } { destruct HN as [(_ & ->) | (_ & E1 & _)]; [exact N0|]. rewrite E1. apply n_one. } { exact UE. }
      exists q. split; [exact I2|]. split; [cbn [nxs]; pose proof I2 as (-> & _); exact J2|]. right. split; [lia|]. split; [exact N2|]. exists p, st1. replace (S n - 1) with n by lia. auto.
  Qed.

  Hypothesis Peps : le N rz eps.
  Hypothesis Zeps : eps <> rz.
  Hypothesis N1 : chain_norm (d_sites s0) x x' = ro.
  Hypothesis Im : forall m s st Es p, m < B -> ups m s0 step0 re = Some (Ok (s, st, Es)) -> d_oc s = Z.of_nat p -> improvable_at eps hs l e (d_sites s) p.
  Lemma run_go : forall n, n <= B -> exists s step Es, ups n s0 step0 re = Some (Ok (s, step, Es)) /\ Forall (fun E => dsh E = []) Es.
  Proof.
    induction n as [|n IH]; intros HB; [|destruct IH as (s & step & Es & U & F); [lia|]].
    - exists s0, step0, []. split; [reflexivity|constructor].
    - destruct (@run_any n s step Es ltac:(lia) U) as (p & I1 & J1 & HN). destruct (phase_ok I1 J1) as (q & D & J2). pose proof I1 as (Ep & _).
      destruct (@step_go N W eps dsvd wt thr mn mx Peps Zeps H_thin H_val Hmn hs hs2 l e x o x' o' ps Sl Se H2 HC p s step q I1 D) as (s' & E & UE & SE & _).
      { apply (@G0 n s step Es p HB U Ep). } { destruct HN as [(_ & ->) | (_ & E1 & _)]; assumption. } { apply (@Im n s step Es p HB U Ep). }
      exists s', (turn re step (d_oc s')), (Es ++ [E]). split; [unfold t_updates in U |- *; rewrite updates_snoc, U; cbn [obind]; rewrite UE; reflexivity|]. apply Forall_app. auto.
  Qed.
  Lemma falling_snoc Es E : forall E0 : N, falling E0 Es -> le N (dv E []) (last (map (fun E => dv E []) Es) E0) -> falling E0 (Es ++ [E]).
  Proof. induction Es as [|E1 Es IH]; intros E0; cbn [falling app]; [cbn; auto|]. intros (H1 & H3) H4. split; [exact H1|]. apply IH; [exact H3|]. cbn [map] in H4. destruct Es as [|E2 Es]; [exact H4|]. cbn [map] in *. clear - H4. revert H4. generalize (dv E2 []), (dv E1 []). intros a b. cbn [last]. destruct (map _ Es) as [|c r]; [auto|]. revert c. induction r as [|d r IH]; intros c; auto. cbn [last] in *. apply IH. Qed.
  Hypothesis Fb : forall m s st Es p s' st' Es', m < B -> ups m s0 step0 re = Some (Ok (s, st, Es)) -> d_oc s = Z.of_nat p -> ups (S m) s0 step0 re = Some (Ok (s', st', Es')) -> full_bond (d_sites s') p.
  Lemma run_energy : forall n s step Es, n <= B -> ups n s0 step0 re = Some (Ok (s, step, Es)) ->
    falling (chain_energy hs l e (d_sites s0)) Es /\ chain_energy hs l e (d_sites s) = last (map (fun E => dv E []) Es) (chain_energy hs l e (d_sites s0)).
  Proof.
    induction n as [|n IH]; intros s2 step2 Es2 HB U.
    - injection U as <- <- <-. split; [exact Logic.I|reflexivity].
    - pose proof U as U'. apply snoc_inv in U as (s & step & Es & E & U & UE & -> & ->). fold (t_updates eps dsvd wt thr mn mx hs hs2) in U. destruct (IH _ _ _ ltac:(lia) U) as (FA & LA).
      destruct (@run_any n s step Es ltac:(lia) U) as (p & I1 & J1 & HN). destruct (phase_ok I1 J1) as (q & D & J2). pose proof I1 as (Ep & _).
      destruct (@step_go N W eps dsvd wt thr mn mx Peps Zeps H_thin H_val Hmn hs hs2 l e x o x' o' ps Sl Se H2 HC p s step q I1 D) as (s' & E' & UE' & SE & EE).
      { apply (@G0 n s step Es p HB U Ep). } { destruct HN as [(_ & ->) | (_ & E1 & _)]; assumption. } { apply (@Im n s step Es p HB U Ep). }
      rewrite UE' in UE. injection UE as -> ->. destruct (EE (@Fb n s step Es p _ _ _ HB U Ep U')) as (EQ & LE). split; [apply falling_snoc; [exact FA|rewrite <- LA; exact LE]|]. rewrite map_app. cbn [map]. rewrite last_last. exact EQ.
  Qed.
End Run.
