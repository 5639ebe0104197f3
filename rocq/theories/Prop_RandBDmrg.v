(** C88: DMRG on block tensors without an initial state (sources/dmrg.cpp 109-118, sources/MPT.cpp 423-462, 479-494, 501-533, 540-545; see RandBDmrg.v). *)
From Verif Require Import Base Quantity QuantityProofs FlatMap SpecFlatMap FlatMapProofs FlatMapThms Ring Index SpecIndex IndexProofs Dense BTensor SpecBTensor LegsProofs BTensorProofs BTensorThms
  BTensorArith SpecArith Tensordot SpecTensordot TensordotThms View Chain SpecChain ChainProofs ChainThms ChainInst ChainEnd BmmThms
  SpecMove SpecEdges SpecSector SpecSvd BSvd SvdDense SvdEx MoveOc MoveInst Truncate SpecTruncate TruncateProofs BTrunc SpecBTrunc BTruncProofs BTruncThms
  Num SpecEig2 Lanczos SpecLanczos LanczosVec LanczosProofs LanczosEx BLanczos SpecBLanczos BTensorEx BLanczosEx BLanczosThms BLanczosMain
  SiteUpdate SpecSiteUpdate ChainNorm ChainEnergy SiteUpdateProofs SiteUpdateThms SiteUpdateEx BSiteUpdate SpecBSiteUpdate BSiteUpdateThms BSiteChain BSiteUpdateEx
  Edges SpecEdges Dmrg DmrgProofs DmrgRun SpecDmrgRun DmrgRunProofs DmrgRunThms DmrgRunMain BDmrgRun SpecBDmrgRun BRunStep BRunSite BRunProofs BRunMain BRunEnergy BSiteUnit DmrgRunEx BRunThms BRunEx Rand SpecRand SpecBcast RandChain SpecRandChain RandBDmrg SpecRandBDmrg RandBDmrgThms RandUnit RandBEnergy RandBDmrgEx RandPasses.

(** Full claim (a): the chain made for operators [hs] and a total quantity can be given to these operators: it has their physical dimensions, the total quantity, bonds of [bd] values, and trivial bonds at its ends.
    Proved for at least one bond value and at least one operator, if the chain is made; otherwise the exception of C47 is thrown, because no configuration was found. The random numbers are arbitrary. *)
Theorem C88_chain_partial : forall (G : abgroup) (N : numeric) (src : nat -> nat) (rnd : nat -> list nat -> list nat -> dense N), (forall i k sh, dsh (rnd i k sh) = sh) ->
  forall (bd : nat) (hs : list (btensor G N)) (ps : list (list nat * list G)) (total : G) (o o' : list nat * list G),
  0 < bd -> hs <> [] -> Forall (@valid G N) hs -> Forall nonempty hs -> bham_fit hs ps o o' ->
  random_bMPS_hamil src rnd bd hs total = Throw InvalidArgument \/
  exists out Ps, random_bMPS_hamil src rnd bd hs total = Ok out /\ random_chain bd Ps total out /\ threaded Ps total out /\ map (fun P => nth 0 (blegs P) ([], [])) Ps = ps /\
    Forall (@phys_ok G N) Ps /\ map (fun T => nth 1 (blegs T) ([], [])) out = ps /\ mpo_fit (@blegs G N) (bdual G) hs out out o o' /\ qprod G (map (@b_rule G N) out) = total /\ length out = length hs.
Proof. exact (fun G N src rnd H => @random_hamil G N src rnd H). Qed.
Print Assumptions C88_chain_partial.

(** With integers in equal steps the chain exists whenever a configuration with the total does. *)
Theorem C88_exists_partial : forall (N : numeric) (src : nat -> nat) (rnd : nat -> list nat -> list nat -> dense N) d S bd (hs : list (btensor z_group N)) ps o o' (total : z_group),
  (forall i k sh, dsh (rnd i k sh) = sh) -> 0 < bd -> hs <> [] -> Forall (@valid z_group N) hs -> Forall nonempty hs -> bham_fit hs ps o o' ->
  (0 < d)%Z -> Forall2 (steps d) S (map snd ps) -> (reach d S <= 32767)%Z -> (exists s, config (map snd ps) total s) ->
  exists out, random_bMPS_hamil src rnd bd hs total = Ok out.
Proof. exact random_hamil_exists. Qed.
Print Assumptions C88_exists_partial.

(** Full claim (b): an empty chain of operators is rejected: "The supplied MPO is empty!" (sources/MPT.cpp 521-522). False: the iterator before the first element is computed before the test. *)
Theorem C88_empty_refuted : forall (G : abgroup) (N : numeric) src rnd bd (total : G), @random_bMPS_hamil G N src rnd bd [] total = UB.
Proof. exact random_hamil_empty. Qed.
Print Assumptions C88_empty_refuted.

(** The chain for a list of physical dimensions is filled in as many passes as these have distinct lists of quantities. *)
Theorem C88_passes : forall (G : abgroup) (N : numeric) src rnd bd (phys : list (btensor G N)) total out, Forall (@meta_ok G N) phys -> random_bMPS_list src rnd bd phys total = Ok out ->
  exists u, NoDup u /\ (forall c, In c u <-> exists P, In P phys /\ nth 0 (qlegs P) [] = c) /\ random_bMPS (ndiv N) (n_sqrt N) src rnd bd phys total (length u) = Ok out.
Proof. exact random_passes. Qed.
Print Assumptions C88_passes.

(** Full claim (c): the chain is normalized, as the initial state of a run should be (C84). Proved for bonds of one value, if no number drawn is zero: then each site is an isometry to both sides, so that any site is the centre. *)
Theorem C88_norm_partial : forall (G : abgroup) (N : numeric) (src : nat -> nat) (rnd : nat -> list nat -> list nat -> dense N),
  (forall i k sh, dsh (rnd i k sh) = sh) -> (forall i k sh o, in_range sh o = true -> dv (rnd i k sh) o <> rz) ->
  forall (hs : list (btensor G N)) ps o o' total sites Ds, hs <> [] -> Forall (@valid G N) hs -> Forall nonempty hs -> bham_fit hs ps o o' -> Forall (fun p => Forall (lt 0) (fst p)) ps ->
  random_bMPS_hamil src rnd 1 hs total = Ok sites -> Forall2 (@dense_form G N) sites Ds ->
  Forall (fun D => left_isometry D /\ right_isometry D) Ds /\ (forall c, canonical Ds c) /\ chain_norm Ds 1 1 = ro.
Proof. exact (fun G N src rnd H1 H2 => @random_product G N src rnd H1 H2). Qed.
Print Assumptions C88_norm_partial.

(** It is false for bonds of two values: each site is divided by its norm, which does not normalize the chain. Two spins up; all numbers drawn are one. *)
Theorem C88_norm_refuted : forall N : numeric, (forall x : N, rconj x = x) -> exists (rnd : nat -> list nat -> list nat -> dense N) (hs sites : list (btensor z_group N)) ps o o' total Ds,
  (forall i k sh, dsh (rnd i k sh) = sh) /\ (forall i k sh o, in_range sh o = true -> dv (rnd i k sh) o <> rz) /\ hs <> [] /\ Forall (@valid z_group N) hs /\ Forall nonempty hs /\ bham_fit hs ps o o' /\ Forall (fun p => Forall (lt 0) (fst p)) ps /\
  random_bMPS_hamil (fun _ => 0) rnd 2 hs total = Ok sites /\ Forall2 (@dense_form z_group N) sites Ds /\ chain_norm Ds 1 1 <> ro.
Proof.
  intros N RE. destruct (two_chain N) as (a & a' & EC & _). destruct (z_well N) as (_ & W2). assert (NE : Forall nonempty [zh1 N; zh2 N]) by (pose proof (z_nonempty N) as H; apply Forall_app in H; apply H).
  destruct (@random_out z_group N (fun _ => 0) (@ex_rnd N (fun _ _ _ => ro)) (fun _ _ _ => eq_refl) 100 2 [zh1 N; zh2 N] [spin; spin] (q 2) bond bond [a; a'] ltac:(lia) ltac:(lia) ltac:(discriminate) W2 NE (ex_fit N) EC) as (R1 & _).
  inversion R1 as [|? ? (V1 & _) R2]; subst. inversion R2 as [|? ? (V2 & _) _]; subst. destruct (to_dense_spec V1) as (D & _ & F1). destruct (to_dense_spec V2) as (D' & _ & F2).
  assert (FD : Forall2 (@dense_form z_group N) [a; a'] [D; D']) by (constructor; [exact F1|constructor; [exact F2|constructor]]).
  exists (@ex_rnd N (fun _ _ _ => ro)), [zh1 N; zh2 N], [a; a'], [spin; spin], bond, bond, (q 2), [D; D']. split; [reflexivity|]. split; [intros i k sh o _; exact (n_one N)|]. split; [discriminate|]. split; [eapply Forall_impl; [|exact W2]; intros T H; apply H|].
  split; [exact NE|]. split; [exact (ex_fit N)|]. split; [repeat constructor|]. split; [exact EC|]. split; [exact FD|]. exact (@two_norm N a a' [D; D'] EC FD RE).
Qed.
Print Assumptions C88_norm_refuted.

(** Full claim (d): [dmrg(hamiltonian, qnum)] returns a chain in the sector of [qnum] for these operators. Proved of every run that returns, for [minimum_bond] at least one, under the restrictions of C84 at the states that the run reaches. *)
Theorem C88_conserved_partial : forall (G : abgroup) (N : numeric) (src : nat -> nat) (rnd : nat -> list nat -> list nat -> dense N), (forall i k sh, dsh (rnd i k sh) = sh) ->
  forall (W : weights) (last_first : bool) (imax : nat) (eps e_init crit : N) (gtb : N -> N -> bool) (lower : N -> N) (wt : N -> W)
    (dsvd : dense N -> dense N * dense N * dense N) (thr : W) (mn mx : Z) (undef : btensor G N) (hs : list (btensor G N)) (ps : list (list nat * list G)) (o o' : list nat * list G) (co co' total : G) (max_iter : nat) (E : btensor G N) (sites' : list (btensor G N)) (c : Z),
  total_order gtb -> (forall v, gtb v rz = true -> gtb v (lower v) = true) -> lower rz = rz -> (1 <= mn <= mx)%Z -> Z.to_nat mn <= imax ->
  (forall M, (exists m n, dsh M = [m; n]) -> thin M (dsvd M) /\ SpecBTrunc.descending gtb (entries (snd (fst (dsvd M)))) /\ forall v, In v (entries (snd (fst (dsvd M)))) -> gtb rz v = false) ->
  2 <= length hs -> Forall (well imax) hs -> Forall nonempty hs -> bham_fit hs ps o o' ->
  carries_only o co -> carries_only o' co' -> order_ok last_first co = true -> order_ok last_first co' = true -> qop G co (qprod G (map (@b_rule G N) hs)) = co' ->
  (forall sites l e k s Es p, random_bMPS_hamil src rnd (Z.to_nat mn) hs total = Ok sites -> run_edges last_first hs sites l e -> k < max_iter * sweep_size (length sites) ->
    b_reached last_first imax eps gtb lower wt dsvd thr mn mx undef hs sites 0 k s Es -> d_oc s = Z.of_nat p -> cut_fine imax eps gtb dsvd hs l e (d_sites s) p) ->
  b_dmrg_random src rnd last_first imax eps e_init crit gtb lower wt dsvd thr mn mx undef max_iter hs total = Some (Ok (E, sites', c)) ->
  Forall (well imax) sites' /\ mps_fit (@blegs G N) (bdual G) sites' (trivial_bond G) (trivial_bond G) /\ map (fun A => nth 1 (blegs A) ([], [])) sites' = ps /\
  qprod G (map (@b_rule G N) sites') = total /\ c = 0%Z /\ neutral_scalar imax E /\
  forall D s cs, Forall2 (@dense_form G N) sites' D -> config_carries sites' s cs -> qprod G cs <> total -> amp D s 0 0 = rz.
Proof. exact (fun G N src rnd H => @random_conserved G N src rnd H). Qed.
Print Assumptions C88_conserved_partial.

(** Full claim (e): the run returns, with the energy of the chain it returns, at most that of the random chain, and this chain is normalized.
    Proved for [minimum_bond] = 1, if no number drawn is zero, under the conditions of C84 at the states that the run reaches. For other bonds the first chain is not normalized and has no centre; nothing is proved of the energy then. *)
Theorem C88_energy_partial : forall (G : abgroup) (N : numeric) (src : nat -> nat) (rnd : nat -> list nat -> list nat -> dense N),
  (forall i k sh, dsh (rnd i k sh) = sh) -> (forall i k sh o, in_range sh o = true -> dv (rnd i k sh) o <> rz) ->
  forall (W : weights) (last_first : bool) (imax : nat) (eps e_init crit : N) (gtb : N -> N -> bool) (lower : N -> N) (wt : N -> W)
    (dsvd : dense N -> dense N * dense N * dense N) (thr : W) (mx : Z) (undef : btensor G N) (hs sites : list (btensor G N)) (Dhs Ds : list (dense N)) (ps : list (list nat * list G)) (o o' : list nat * list G) (co co' tot : G) (max_iter : nat),
  let Dl := @d_full N [1; bsz G o; 1] ro in let De := @d_full N [1; bsz G o'; 1] ro in let steps := max_iter * sweep_size (length hs) in
  le N rz eps -> eps <> rz -> total_order gtb -> (forall v, gtb v rz = true -> gtb v (lower v) = true) -> lower rz = rz -> (1 <= mx)%Z -> 1 <= imax ->
  (forall M, (exists m n, dsh M = [m; n]) -> thin M (dsvd M) /\ real_entries (snd (fst (dsvd M))) /\ SpecBTrunc.descending gtb (entries (snd (fst (dsvd M)))) /\ forall v, In v (entries (snd (fst (dsvd M)))) -> gtb rz v = false) ->
  (forall v, wgtb (total wt v) thr = true <-> exists y, In y v /\ y <> rz) ->
  2 <= length hs -> Forall2 (stored imax) hs Dhs -> Forall nonempty hs -> bham_fit hs ps o o' -> Forall (fun p => Forall (lt 0) (fst p)) ps ->
  carries_only o co -> carries_only o' co' -> order_ok last_first co = true -> order_ok last_first co' = true -> qop G co (qprod G (map (@b_rule G N) hs)) = co' ->
  hermitian_chain Dhs Dl De (map (fun p => sum_list (fst p)) ps) -> 1 <= max_iter ->
  random_bMPS_hamil src rnd 1 hs tot = Ok sites -> Forall2 (@dense_form G N) sites Ds ->
  (forall l e k s Es p, run_edges last_first hs sites l e -> k < steps -> b_reached last_first imax eps gtb lower wt dsvd thr 1 mx undef hs sites 0 k s Es -> d_oc s = Z.of_nat p ->
    step_fine imax eps gtb dsvd mx hs l e (d_sites s) p) ->
  (forall k s Es p Dk, k < steps -> b_reached last_first imax eps gtb lower wt dsvd thr 1 mx undef hs sites 0 k s Es -> d_oc s = Z.of_nat p ->
    Forall2 (stored imax) (d_sites s) Dk -> chain_norm Dk 1 1 = ro -> improvable_at eps Dhs Dl De Dk p) ->
  exists E DE sites' Ds', b_dmrg_random src rnd last_first imax eps e_init crit gtb lower wt dsvd thr 1 mx undef max_iter hs tot = Some (Ok (E, sites', 0%Z)) /\
    stored imax E DE /\ blegs E = [] /\ Forall2 (stored imax) sites' Ds' /\
    dv DE [] = chain_energy Dhs Dl De Ds' /\ le N (dv DE []) (chain_energy Dhs Dl De Ds) /\ chain_norm Ds' 1 1 = ro /\ canonical Ds' (b_final_centre (length hs) 0).
Proof. exact (fun G N src rnd H1 H2 => @random_energy G N src rnd H1 H2). Qed.
Print Assumptions C88_energy_partial.

(** Two spins with [- Z Z], total quantity 2, any numbers that are not zero, any number of sweeps: the chain exists, the run returns a chain of this quantity, with energy at most that of the random one. *)
Example C88_ex : forall (N : numeric) (w : nat -> list nat -> list nat -> N) (eps e_init crit : N) (last_first : bool) (undef : btensor z_group N) (max_iter : nat),
  (forall x : N, rconj x = x) -> (forall i k o, w i k o <> rz) -> le N rz eps -> eps <> rz -> 1 <= max_iter ->
  let el := @d_full N [1; 1; 1] ro in let rnd := @ex_rnd N w in let hs := [zh1 N; zh2 N] in
  exists sites Ds E DE sites' Ds', random_bMPS_hamil (fun _ => 0) rnd 1 hs (q 2) = Ok sites /\ Forall2 (@dense_form z_group N) sites Ds /\
    b_dmrg_random (fun _ => 0) rnd last_first 100 eps e_init crit (n_gtb N) (half N) (count N) (ex_svd1 N) (0%N : w_N) 1 10 undef max_iter hs (q 2) = Some (Ok (E, sites', 0%Z)) /\
    stored 100 E DE /\ Forall2 (stored 100) sites' Ds' /\ dv DE [] = chain_energy [dzh1 N; dzh2 N] el el Ds' /\ le N (dv DE []) (chain_energy [dzh1 N; dzh2 N] el el Ds) /\ chain_norm Ds' 1 1 = ro /\
    map (fun A => nth 1 (blegs A) ([], [])) sites' = [spin; spin] /\ qprod z_group (map (@b_rule z_group N) sites') = q 2 /\ neutral_scalar 100 E.
Proof.
  intros N w eps e_init crit lf undef mi RE Hw P Z Hi el rnd hs. destruct (ex_chain N w) as (a & a' & EC). destruct (z_well N) as (_ & W2). assert (NE : Forall nonempty hs) by (pose proof (z_nonempty N) as H; apply Forall_app in H; apply H).
  destruct (@random_out z_group N (fun _ => 0) rnd (fun _ _ _ => eq_refl) 100 1 hs [spin; spin] (q 2) bond bond [a; a'] ltac:(lia) ltac:(lia) ltac:(discriminate) W2 NE (ex_fit N) EC) as (R1 & _).
  inversion R1 as [|? ? (V1 & _) R2]; subst. inversion R2 as [|? ? (V2 & _) _]; subst. destruct (to_dense_spec V1) as (D & _ & F1). destruct (to_dense_spec V2) as (D' & _ & F2).
  assert (FD : Forall2 (@dense_form z_group N) [a; a'] [D; D']) by (constructor; [exact F1|constructor; [exact F2|constructor]]).
  assert (HS : Forall (fun p : list nat * list z_group => Forall (lt 0) (fst p)) [spin; spin]) by repeat constructor.
  pose proof (fun l e k s Es p => @ex_reached N w RE Hw eps lf undef mi P Z a a' [D; D'] EC FD l e k s Es p) as RCH.
  destruct (ex_facts RE Hw eps mi EC FD) as (G1 & G2 & G3 & G4 & _).
  destruct (@bedges z_group N lf 100 hs [a; a'] bond bond bond bond (q 0) (q 0) (q 0) (q 0) ltac:(cbn; lia) G1 W2 G3 G4 z_carries z_carries z_carries z_carries ltac:(apply Forall_app; split; assumption) (z_order lf) (z_order lf) (z_rule N)) as (l & e & _ & _ & RG & _).
  destruct (@C88_energy_partial z_group N (fun _ => 0) rnd (fun _ _ _ => eq_refl) (fun i k sh o _ => Hw i k o) w_N lf 100 eps e_init crit (n_gtb N) (half N) (count N) (ex_svd1 N) 0%N 10 undef hs [a; a'] [dzh1 N; dzh2 N] [D; D'] [spin; spin] bond bond (q 0) (q 0) (q 2) mi
    P Z (@gtb_order N RE) (half_lower N) (half_0 N) ltac:(lia) ltac:(lia) (@svd1_gtb N RE) (fun v => @count_exact N RE v) ltac:(cbn; lia) (den_hs N) NE (ex_fit N) HS z_carries z_carries (z_order lf) (z_order lf) (z_rule N) (z_hermitian N) Hi EC FD) as (E & DE & sites' & Ds' & ER & D1 & _ & D2 & D3 & D4 & D5 & _).
  - intros l0 e0 k s Es p RG0 Hk HR Ep. apply (RCH l0 e0 k s Es p RG0 Hk HR Ep).
  - intros k s Es p Dk Hk HR Ep F NV. destruct (RCH l e k s Es p RG Hk HR Ep) as (_ & _ & H). exact (H Dk F NV).
  - exists [a; a'], [D; D'], E, DE, sites', Ds'. split; [exact EC|]. do 7 (split; [assumption|]).
    destruct (@C88_conserved_partial z_group N (fun _ => 0) rnd (fun _ _ _ => eq_refl) w_N lf 100 eps e_init crit (n_gtb N) (half N) (count N) (ex_svd1 N) 0%N 1 10 undef hs [spin; spin] bond bond (q 0) (q 0) (q 2) mi E sites' 0%Z
      (@gtb_order N RE) (half_lower N) (half_0 N) ltac:(lia) ltac:(cbn; lia) (fun M HM => match @svd1_gtb N RE M HM with Logic.conj A (Logic.conj _ B) => Logic.conj A B end) ltac:(cbn; lia) W2 NE (ex_fit N) z_carries z_carries (z_order lf) (z_order lf) (z_rule N)) as (_ & _ & Q3 & Q4 & _ & Q6 & _).
    + intros sites l0 e0 k s Es p ES RG0 Hk HR Ep. assert (ES' : Ok sites = Ok [a; a']) by (transitivity (random_bMPS_hamil (fun _ => 0) (@ex_rnd N w) 1 [zh1 N; zh2 N] (q 2)); [symmetry; exact ES|exact EC]). injection ES' as ->. apply (RCH l0 e0 k s Es p RG0 Hk HR Ep).
    + exact ER.
    + auto.
Qed.
Print Assumptions C88_ex.
