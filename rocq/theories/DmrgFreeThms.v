(** Whole runs of DMRG on dense tensors from chains in any form. *)
From Verif Require Import Base Ring Index SpecIndex Dense IndexProofs BTensor BTensorArith Bcast Tensordot SpecTensordot Chain SpecChain ChainProofs ChainThms ChainInst ChainEnd
  SpecMove SpecSvd SvdDense MoveOc MoveProofs MoveInst Truncate SpecTruncate TruncateProofs BSvd BTrunc Num Lanczos SpecLanczos LanczosVec LanczosProofs SiteUpdate SpecSiteUpdate ChainNorm ChainEnergy SiteUpdateProofs SiteUpdateThms
  Dmrg DmrgProofs DmrgRun SpecDmrgRun DmrgRunProofs DmrgRunThms DmrgFree.
Set Implicit Arguments.

(** * Positions met *)
(** All positions met in [n] updates and where the run stands then are in the window. *)
Definition seen (M ph0 n lo hi : nat) : Prop := forall m p st, m <= n -> at_phase M (nxs M m ph0) p st -> lo <= p /\ p + 2 <= hi.
Definition covered (M ph0 n : nat) : Prop := forall lo hi, seen M ph0 n lo hi -> lo = 0 /\ M + 1 <= hi.
Lemma phase_hit M ph0 t : 2 <= M -> ph0 < 2 * (M - 1) -> t < 2 * (M - 1) -> nxs M (if ph0 <=? t then t - ph0 else t + 2 * (M - 1) - ph0) ph0 = t.
Proof.
  intros HM H0 Ht. rewrite nxs_phase, phase_mod by lia. destruct (Nat.leb_spec ph0 t).
  - replace (ph0 + (t - ph0)) with t by lia. apply Nat.mod_small, Ht.
  - replace (ph0 + (t + 2 * (M - 1) - ph0)) with (t + 1 * (2 * (M - 1))) by lia. rewrite Nat.mod_add by lia. apply Nat.mod_small, Ht.
Qed.
Lemma hits_cover M ph0 n p0 st0 : at_phase M ph0 p0 st0 -> (M = 1 \/ (forall t, t = 0 \/ t = M - 1 -> (if ph0 <=? t then t - ph0 else t + 2 * (M - 1) - ph0) <= n)) -> covered M ph0 n.
Proof.
  intros J HT lo hi S. destruct J as [(-> & -> & -> & ->) | (HM & H0 & _)].
  - destruct (S 0 0 0%Z) as (A & B); [lia|left; auto|]. lia.
  - destruct HT as [Q|HT]; [lia|]. destruct (S _ 0 (dir M 0) (HT 0 (or_introl eq_refl))) as (A & _).
    { rewrite phase_hit by lia. right. unfold pos. cbn. repeat split; lia. }
    destruct (S _ (M - 1) (dir M (M - 1)) (HT (M - 1) (or_intror eq_refl))) as (_ & B).
    { rewrite phase_hit by lia. right. unfold pos. rewrite Nat.leb_refl. repeat split; lia. }
    lia.
Qed.
Lemma full_cover M ph0 n p0 st0 : at_phase M ph0 p0 st0 -> 2 * (M - 1 + (if M =? 1 then 1 else 0)) <= n + 1 -> covered M ph0 n.
Proof.
  intros J Hn. apply (hits_cover J). destruct J as [(-> & _) | (HM & H0 & _)]; [auto|]. right. destruct (Nat.eqb_spec M 1); [lia|]. intros t Ht. destruct (Nat.leb_spec ph0 t); lia.
Qed.
Lemma front_cover M n p0 st0 : at_phase M 0 p0 st0 -> M - 1 <= n -> covered M 0 n.
Proof. intros J Hn. apply (hits_cover J). right. intros t Ht. destruct (Nat.leb_spec 0 t); lia. Qed.

(** * A chain that is not zero has no dimension of size zero. *)
Section Solid.
  Context {N : numeric}.
  Notation t := (dense N).
  Notation fit := (mps_fit (@dsh N) (fun k : nat => k)).
  Lemma sum_nz A (f : A -> N) (ks : list A) : sumf N f ks <> rz -> exists k, In k ks /\ f k <> rz.
  Proof.
    induction ks as [|k ks IH]; intros H; [exfalso; apply H; reflexivity|]. destruct (reqb (f k) rz) eqn:Q.
    - apply reqb_spec in Q. destruct IH as (k' & K1 & K2); [|exists k'; split; [right; exact K1|exact K2]]. intros Z. apply H. change (sumf N f (k :: ks)) with (radd (f k) (sumf N f ks)). rewrite Q, Z. apply (Ring_theory.Radd_0_l (ring_th N)).
    - exists k. split; [left; reflexivity|]. intros Z. rewrite (proj2 (reqb_spec N _ _) Z) in Q. discriminate.
  Qed.
  Lemma amp_solid : forall (sites : list t) c a b x y, fit sites x y -> in_range (map (size 1) sites) c = true -> a < x -> amp sites c a b <> rz -> solid sites.
  Proof.
    induction sites as [|A sites IH]; intros c a b x y F R Ha H; [intros A k []|]. destruct F as (s & k & S & F). destruct c as [|i c]; [discriminate|]. cbn [map in_range] in R. apply andb_true_iff in R as (R1 & R2). apply Nat.ltb_lt in R1. unfold size in R1. rewrite S in R1. cbn [nth] in R1.
    cbn [amp] in H. apply sum_nz in H as (j & J1 & J2). apply in_seq in J1. unfold size in J1. rewrite S in J1. cbn [nth] in J1.
    assert (SO : solid sites). { apply (IH c j b k y F R2); [lia|]. intros Z. apply J2. rewrite Z. apply rmul_0_r. }
    intros B n [<-|HB] Hn; [|exact (SO B n HB Hn)]. rewrite S in Hn. destruct Hn as [<-|[<-|[<-|[]]]]; lia.
  Qed.
  Lemma norm_solid (sites : list t) x y : fit sites x y -> chain_norm sites x y <> rz -> solid sites.
  Proof.
    intros F H. unfold chain_norm in H. apply sum_nz in H as (a & Ha & H). apply sum_nz in H as (b & _ & H). apply sum_nz in H as (c & Hc & H). apply in_seq in Ha. unfold configs in Hc. apply idxs_In in Hc.
    apply (@amp_solid sites c a b x y F Hc); [lia|]. intros Z. apply H. rewrite Z. apply rmul_0_r.
  Qed.
End Solid.

Section Run.
  Context {N : numeric} {W : weights}.
  Notation t := (dense N).
  Notation idk := (fun k : nat => k).
  Notation fit := (mps_fit (@dsh N) idk).
  Notation ofit := (mpo_fit (@dsh N) idk).
  Notation sizes := (map (@size N 1)).
  Variable eps : N.
  Variable dsvd : t -> t * t * t.
  Variable wt : N -> W.
  Variable thr : W.
  Variables mn mx : Z.
  Hypothesis H_thin : forall M, (exists m n, dsh M = [m; n]) -> thin M (dsvd M) /\ real_entries (snd (fst (dsvd M))).
  Hypothesis H_val : forall M, (exists m n, dsh M = [m; n]) -> descending (snd (fst (dsvd M))).
  Hypothesis Hmn : (1 <= mn <= mx)%Z.
  Variables (hs hs2 : list t) (l e : t) (x o x' o' : nat) (ps : list nat).
  Hypothesis Sl : dsh l = [x; o; x].
  Hypothesis Se : dsh e = [x'; o'; x'].
  Hypothesis H2 : compute_2sites_hamil t_tdot t_perm hs = Ok hs2.
  Hypothesis HC : hermitian_chain hs l e ps.
  Notation L := (length hs).
  Notation M := (L - 1).
  Notation ups := (t_updates eps dsvd wt thr mn mx hs hs2).
  Notation re := (Z.of_nat L - 2)%Z.
  Notation inv := (inv hs l e x o x' o' ps).
  Notation base := (base hs l e x o x' o' ps).
  Variables (s0 : dst t t) (p0 : nat) (step0 : Z) (ph0 : nat).
  Hypothesis I0 : base p0 s0.
  Hypothesis J0 : at_phase M ph0 p0 step0.
  Hypothesis S0 : solid (d_sites s0).
  Variable B : nat.
  Hypothesis G0 : forall m s st Es p, m < B -> ups m s0 step0 re = Some (Ok (s, st, Es)) -> d_oc s = Z.of_nat p -> good eps dsvd hs l e p (d_sites s).

  Lemma phase_free ph p s step : base p s -> at_phase M ph p step -> exists q, dir_ok hs p step q /\ at_phase M (nx M ph) q (turn re step (Z.of_nat q)).
  Proof.
    intros I J. pose proof I as (_ & HL & _). destruct (phase_step J) as (q & Hq & Hs & HqM & J'). exists q. split; [split; [exact Hq|]; split; [exact Hs|lia]|]. replace re with (Z.of_nat M - 1)%Z by lia. exact J'.
  Qed.
  Lemma run_free : forall n s step Es, n <= B -> ups n s0 step0 re = Some (Ok (s, step, Es)) ->
    exists p, base p s /\ at_phase M (nxs M n ph0) p step /\ solid (d_sites s) /\ (exists lo hi, lo <= p /\ p + 2 <= hi /\ window lo hi p (d_sites s) /\ seen M ph0 n lo hi) /\
      (1 <= n -> covered M ph0 (n - 1) -> chain_norm (d_sites s) x x' = ro /\ exists p1 step1, at_phase M (nxs M (n - 1) ph0) p1 step1 /\ gauge (centre_after p1 step1) (d_sites s)).
  Proof.
    induction n as [|n IH]; intros s step Es HB U.
    - injection U as <- <- <-. exists p0. split; [exact I0|]. split; [exact J0|]. split; [exact S0|]. split; [|lia]. exists p0, (p0 + 2). split; [lia|]. split; [lia|]. split; [split; intros j A Hj; lia|].
      intros m p st Hm J. assert (m = 0) by lia. subst m. destruct (phase_fun J0 J) as (<- & _). lia.
    - apply snoc_inv in U as (s1 & st1 & l1 & E & U1 & UE & -> & ->). fold (t_updates eps dsvd wt thr mn mx hs hs2) in U1. destruct (IH _ _ _ ltac:(lia) U1) as (p & I1 & J1 & SO & (lo & hi & Hlo & Hhi & WI & SN) & _).
      destruct (phase_free I1 J1) as (q & D & J2).
      destruct (@step_free N W eps dsvd wt thr mn mx H_thin H_val Hmn hs hs2 l e x o x' o' ps Sl Se H2 HC p s1 st1 q s E I1 D) as (I2 & SO2 & W2 & G2).
      { apply (@G0 n s1 st1 l1 p HB U1). apply I1. } { exact SO. } { exact UE. }
      assert (J3 : at_phase M (nxs M (S n) ph0) q (turn re st1 (d_oc s))) by (cbn [nxs]; pose proof I2 as (-> & _); exact J2).
      exists q. split; [exact I2|]. split; [exact J3|]. split; [exact SO2|]. split.
      + exists (Nat.min lo q), (Nat.max hi (q + 2)). split; [lia|]. split; [lia|]. split; [apply W2; assumption|].
        intros m p' st' Hm J'. destruct (Nat.eq_dec m (S n)) as [-> |Q]; [destruct (phase_fun J3 J') as (<- & _); lia|]. destruct (SN m p' st' ltac:(lia) J'). lia.
      + intros _ CV. replace (S n - 1) with n in CV |- * by lia. destruct (CV lo hi SN) as (-> & Hh). pose proof I1 as (_ & HL & _). destruct (G2 (@window_inv N hs l e x o x' o' ps 0 hi p s1 I1 WI eq_refl ltac:(lia))) as (N2 & GG).
        split; [exact N2|]. exists p, st1. auto.
  Qed.
  Lemma free_inv n s step Es : n <= B -> ups n s0 step0 re = Some (Ok (s, step, Es)) -> covered M ph0 n -> exists p, inv p s /\ at_phase M (nxs M n ph0) p step.
  Proof.
    intros HB U CV. destruct (run_free HB U) as (p & I1 & J1 & _ & (lo & hi & _ & _ & WI & SN) & _). destruct (CV lo hi SN) as (-> & Hh). exists p. split; [|exact J1]. pose proof I1 as (_ & HL & _). apply (@window_inv N hs l e x o x' o' ps 0 hi p s I1 WI eq_refl). lia.
  Qed.
  (** The last update. *)
  Hypothesis Peps : le N rz eps.
  Hypothesis Zeps : eps <> rz.
  Lemma free_last n s step Es s1 st1 Es1 p1 : S n <= B -> 1 <= n -> covered M ph0 (n - 1) -> ups n s0 step0 re = Some (Ok (s1, st1, Es1)) -> ups (S n) s0 step0 re = Some (Ok (s, step, Es)) ->
    d_oc s1 = Z.of_nat p1 -> improvable_at eps hs l e (d_sites s1) p1 -> full_bond (d_sites s) p1 -> forall d, dv (last Es d) [] = chain_energy hs l e (d_sites s).
  Proof.
    intros HB Hn CV U1 U Ep HI HF d. assert (CV' : covered M ph0 n) by (intros lo hi SN; apply CV; intros m p st Hm; apply SN; lia).
    destruct (@free_inv n s1 st1 Es1 ltac:(lia) U1 CV') as (p & I1 & J1). destruct (@run_free n s1 st1 Es1 ltac:(lia) U1) as (_ & _ & _ & _ & _ & HN). destruct (HN Hn CV) as (N1 & _).
    pose proof I1 as (Ep' & _). rewrite Ep in Ep'. apply Nat2Z.inj in Ep'. subst p1.
    assert (I1' : base p s1) by (destruct I1 as (? & ? & ? & ? & ? & ? & ? & ? & _); repeat split; assumption). destruct (phase_free I1' J1) as (q & D & _).
    destruct (@step_go N W eps dsvd wt thr mn mx Peps Zeps H_thin H_val Hmn hs hs2 l e x o x' o' ps Sl Se H2 HC p s1 st1 q I1 D) as (s' & E' & UE' & SE & EE); [|exact N1|exact HI|].
    { apply (@G0 n s1 st1 Es1 p HB U1 Ep). }
    apply snoc_inv in U as (s1' & st1' & l1 & E & U1' & UE & -> & ->). fold (t_updates eps dsvd wt thr mn mx hs hs2) in U1'. rewrite U1 in U1'. injection U1' as <- <- <-. rewrite UE' in UE. injection UE as -> ->.
    rewrite last_last. symmetry. apply EE, HF.
  Qed.
End Run.
