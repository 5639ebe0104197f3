(** What a run of DMRG on block tensors conserves. *)
From Verif Require Import Base Quantity QuantityProofs Ring Index SpecIndex Dense BTensor SpecBTensor Tensordot Chain SpecChain ChainInst SpecMove SpecSvd BSvd BTensorProofs MoveInst Truncate SpecTruncate SpecBTrunc BTruncProofs Num
  SpecEdges SpecSector SectorThms Dmrg DmrgRun BDmrgRun SpecBDmrgRun BRunSite BRunMain.
Set Implicit Arguments.

Section C.
  Context {G : abgroup} {N : numeric}.
  Notation bt := (btensor G N).
  Notation tl := (@blegs G N).
  Notation phys := (map (fun A : bt => nth 1 (tl A) (bk0 G))).
  Lemma carries_phys (l l' : list bt) s cs : phys l' = phys l -> config_carries l s cs -> config_carries l' s cs.
  Proof.
    intros E (H1 & H2 & H3). assert (LE : length l' = length l) by (rewrite <- (map_length (fun A : bt => nth 1 (tl A) (bk0 G)) l'), E, map_length; reflexivity). split; [lia|]. split; [lia|]. intros i A NA.
    pose proof (map_nth_error (fun A : bt => nth 1 (tl A) (bk0 G)) i l' NA) as Q. rewrite E in Q. destruct (nth_error l i) as [B|] eqn:NB; [|apply nth_error_None in NB; assert (i < length l') by (apply nth_error_Some; congruence); lia].
    rewrite (map_nth_error _ _ _ NB) in Q. injection Q as Q. unfold bk0 in Q. rewrite <- Q. apply H3. exact NB.
  Qed.
End C.

Theorem conserved : forall (G : abgroup) (N : numeric) (W : weights) (last_first : bool) (imax : nat) (eps e_init crit : N) (gtb : N -> N -> bool) (lower : N -> N) (wt : N -> W)
    (dsvd : dense N -> dense N * dense N * dense N) (thr : W) (mn mx : Z) (undef : btensor G N) (hs sites : list (btensor G N)) (x o x' o' : list nat * list G) (cx cx' co co' : G) (oc max_iter : nat) (E : btensor G N) (sites' : list (btensor G N)) (c : Z),
  total_order gtb -> (forall v, gtb v rz = true -> gtb v (lower v) = true) -> lower rz = rz -> (1 <= mn <= mx)%Z ->
  (forall M, (exists m n, dsh M = [m; n]) -> thin M (dsvd M) /\ SpecBTrunc.descending gtb (entries (snd (fst (dsvd M)))) /\ forall v, In v (entries (snd (fst (dsvd M)))) -> gtb rz v = false) ->
  2 <= length hs -> oc < length hs -> Forall (well imax) sites -> Forall (well imax) hs -> Forall nonempty (sites ++ hs) ->
  mps_fit (@blegs G N) (bdual G) sites x x' -> mpo_fit (@blegs G N) (bdual G) hs sites sites o o' ->
  carries_only x cx -> carries_only x' cx' -> carries_only o co -> carries_only o' co' -> order_ok last_first co = true -> order_ok last_first co' = true ->
  qop G co (qprod G (map (@b_rule G N) hs)) = co' ->
  (forall l e k s Es p, run_edges last_first hs sites l e -> k < max_iter * sweep_size (length sites) -> b_reached last_first imax eps gtb lower wt dsvd thr mn mx undef hs sites oc k s Es ->
    d_oc s = Z.of_nat p -> cut_fine imax eps gtb dsvd hs l e (d_sites s) p) ->
  b_dmrg last_first imax eps e_init crit gtb lower wt dsvd thr mn mx undef max_iter hs sites oc = Some (Ok (E, sites', c)) ->
  Forall (well imax) sites' /\ mps_fit (@blegs G N) (bdual G) sites' x x' /\ map (fun A => nth 1 (blegs A) ([], [])) sites' = map (fun A => nth 1 (blegs A) ([], [])) sites /\
  qprod G (map (@b_rule G N) sites') = qprod G (map (@b_rule G N) sites) /\ c = Z.of_nat (start_pos (length sites) oc) /\ neutral_scalar imax E /\
  forall D s cs i i' a b, Forall2 (@dense_form G N) sites' D -> config_carries sites s cs -> carries x i a -> carries x' i' b ->
    qop G (qprod G cs) b <> qop G a (qprod G (map (@b_rule G N) sites)) -> amp D s i i' = rz.
Proof.
  intros G N W last_first imax eps e_init crit gtb lower wt dsvd thr mn mx undef hs sites x o x' o' cx cx' co co' oc max_iter E sites' c HO low low0 Hmn HT HL Ho Ws Wh Ne Fs Os Cx Cx' Co Co' Or Or' HR Hcut ER.
  destruct (@bedges G N last_first imax hs sites x o x' o' cx cx' co co' HL Ws Wh Fs Os Cx Cx' Co Co' Ne Or Or' HR) as (l & e & Dl & De & RE & HDl & HDe & _ & Sl & Se & HQ).
  destruct (@brun_returned G N W last_first imax eps e_init crit gtb lower wt dsvd thr mn mx undef HO low low0 Hmn HT hs sites x o x' o' oc max_iter HL Ho Ws Wh Fs Os l e Dl De RE HDl HDe Sl Se HQ) with (E := E) (sites' := sites') (c := c) as (R1 & R2 & R3 & R4 & R5 & R6); [|exact ER|].
  - intros k s Es p Hk HR' Ep. eapply Hcut; eauto.
  - split; [exact R1|]. split; [exact R2|]. split; [exact R3|]. split; [exact R4|]. split; [exact R5|]. split; [exact R6|].
    intros D s cs i i' a b FD CC C1 C2 NQ. rewrite <- R4 in NQ.
    assert (V : Forall (@valid G N) sites') by (eapply Forall_impl; [|exact R1]; intros A HA; apply HA).
    assert (Hx : length (snd x) = length (fst x)).
    { destruct sites' as [|A r]; [apply (f_equal (@length _)) in R3; cbn in R3; rewrite map_length in R3; pose proof (BRunProofs.bofit_len _ _ _ _ _ Os); lia|].
      destruct R2 as (s0 & k0 & T0 & _). inversion R1 as [|? ? W0 _]; subst. pose proof W0 as ((M & _) & _).
      pose proof (legs_lens M) as N1. pose proof (qlegs_lens M) as N2. destruct (blegs_split M T0) as (L1 & L2). rewrite L1 in N1. rewrite L2 in N2. cbn in N1, N2. rewrite map_length in N2. congruence. }
    apply (@sector_thm G N sites' D x x' s cs i i' a b V FD R2 (carries_phys _ R3 CC) Hx C1 C2 NQ).
Qed.
