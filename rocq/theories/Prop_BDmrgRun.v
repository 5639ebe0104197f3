(** C84: whole runs of DMRG on block tensors (sources/dmrg.cpp 92-100, 127-273, 370-409, see BDmrgRun.v). *)
From Verif Require Import Base Quantity QuantityProofs FlatMap SpecFlatMap FlatMapProofs FlatMapThms Ring Index SpecIndex IndexProofs Dense BTensor SpecBTensor LegsProofs BTensorProofs BTensorThms
  BTensorArith SpecArith Tensordot SpecTensordot TensordotThms View Chain SpecChain ChainProofs ChainThms ChainInst ChainEnd BmmThms
  SpecMove SpecEdges SpecSector SpecSvd BSvd SvdDense SvdEx MoveOc MoveInst Truncate SpecTruncate TruncateProofs BTrunc SpecBTrunc BTruncProofs BTruncThms
  Num SpecEig2 Lanczos SpecLanczos LanczosVec LanczosProofs LanczosEx BLanczos SpecBLanczos BTensorEx BLanczosEx BLanczosThms BLanczosMain
  SiteUpdate SpecSiteUpdate ChainNorm ChainEnergy SiteUpdateProofs SiteUpdateThms SiteUpdateEx BSiteUpdate SpecBSiteUpdate BSiteUpdateThms BSiteChain BSiteUpdateEx
  Edges SpecEdges Dmrg DmrgProofs DmrgRun SpecDmrgRun DmrgRunProofs DmrgRunThms DmrgRunMain BDmrgRun SpecBDmrgRun BRunStep BRunSite BRunProofs BRunMain BRunEnergy BSiteUnit DmrgRunEx BRunThms BRunEx.

(** Full claim (a): [dmrg] on a chain of block tensors returns a chain with the same edges, the same physical dimensions and the same total quantity, made of valid tensors,
    whose amplitudes vanish outside that quantity; the energy is a neutral number.
    Proved: every run that returns does so, for chains of any length, any starting centre, any number of sweeps. Restrictions: the edges of the chain and of the operators carry one quantity each (the environments at the
    edges are blocks of ones, see C51), of operators with total quantity zero; at each state that the run reaches, the pair that the update gives is not zero, its sizes are within the types of the code, and truncating its decomposition
    keeps the invariant ([cut_fine]; see C64 for tensors where truncation does not). [torch::svd] is the argument [dsvd]. *)
Theorem C84_conserved_partial : forall (G : abgroup) (N : numeric) (W : weights) (last_first : bool) (imax : nat) (eps e_init crit : N) (gtb : N -> N -> bool) (lower : N -> N) (wt : N -> W)
    (dsvd : dense N -> dense N * dense N * dense N) (thr : W) (mn mx : Z) (undef : btensor G N) (hs sites : list (btensor G N)) (x o x' o' : list nat * list G) (cx cx' co co' : G) (oc max_iter : nat) (E : btensor G N) (sites' : list (btensor G N)) (c : Z),
  total_order gtb -> (forall v, gtb v rz = true -> gtb v (lower v) = true) -> lower rz = rz -> (1 <= mn <= mx)%Z ->
  (forall M, (exists m n, dsh M = [m; n]) -> thin M (dsvd M) /\ SpecBTrunc.descending gtb (entries (snd (fst (dsvd M)))) /\ forall v, In v (entries (snd (fst (dsvd M)))) -> gtb rz v = false) ->
  2 <= length hs -> oc < length hs -> Forall (well imax) sites -> Forall (well imax) hs -> Forall nonempty (sites ++ hs) ->
  mps_fit (@blegs G N) (bdual G) sites x x' -> mpo_fit (@blegs G N) (bdual G) hs sites sites o o' ->
  carries_only x cx -> carries_only x' cx' -> carries_only o co -> carries_only o' co' -> order_ok last_first co = true -> order_ok last_first co' = true ->
  qop G co (qprod G (map (@b_rule G N) hs)) = co' ->
  (forall l e k s Es p, run_edges last_first hs sites l e -> k < max_iter * sweep_size (length sites) -> b_reached last_first imax eps gtb lower wt dsvd thr mn mx undef hs sites oc k s Es ->
    d_oc s = Z.of_nat p -> cut_fine imax eps gtb dsvd hs l e (d_sites s) p) ->
  b_dmrg last_first imax eps e_init crit gtb lower wt dsvd thr mn mx undef max_iter hs sites oc = Some (Ok (E, sites', c)) ->
  Forall (well imax) sites' /\ mps_fit (@blegs G N) (bdual G) sites' x x' /\ map (fun A => nth 1 (blegs A) ([], [])) sites' = map (fun A => nth 1 (blegs A) ([], [])) sites /\
  qprod G (map (@b_rule G N) sites') = qprod G (map (@b_rule G N) sites) /\ c = Z.of_nat (start_pos (length sites) oc) /\ neutral_scalar imax E /\
  forall D s cs i i' a b, Forall2 (@dense_form G N) sites' D -> config_carries sites s cs -> carries x i a -> carries x' i' b ->
    qop G (qprod G cs) b <> qop G a (qprod G (map (@b_rule G N) sites)) -> amp D s i i' = rz.
Proof. exact conserved. Qed.
Print Assumptions C84_conserved_partial.

(** Full claim (b): the run returns; the energy it reports is that of the chain it returns, this chain is normalized, has its centre where C43 says, and the energies of the updates never rise, from the energy of the chain given.
    Proved: all of it when no singular value is discarded (the limit on the bond and the threshold leave all the non-zero ones) and at each state that the run reaches C83 applies ([step_fine]: the blocks that the operators reach are
    stored, the decomposition is right; [improvable_at]: the residual is at least [eps] or the pair is an eigenvector with negative eigenvalue, see C75). *)
Theorem C84_energy_partial : forall (G : abgroup) (N : numeric) (W : weights) (last_first : bool) (imax : nat) (eps e_init crit : N) (gtb : N -> N -> bool) (lower : N -> N) (wt : N -> W)
    (dsvd : dense N -> dense N * dense N * dense N) (thr : W) (mn mx : Z) (undef : btensor G N) (hs sites : list (btensor G N)) (Dhs Ds : list (dense N)) (x o x' o' : list nat * list G) (cx cx' co co' : G) (oc max_iter : nat),
  let Dl := @d_full N [bsz G x; bsz G o; bsz G x] ro in let De := @d_full N [bsz G x'; bsz G o'; bsz G x'] ro in
  let steps := max_iter * sweep_size (length sites) in
  le N rz eps -> eps <> rz -> total_order gtb -> (forall v, gtb v rz = true -> gtb v (lower v) = true) -> lower rz = rz -> (1 <= mn <= mx)%Z ->
  (forall M, (exists m n, dsh M = [m; n]) -> thin M (dsvd M) /\ real_entries (snd (fst (dsvd M))) /\ SpecBTrunc.descending gtb (entries (snd (fst (dsvd M)))) /\ forall v, In v (entries (snd (fst (dsvd M)))) -> gtb rz v = false) ->
  (forall v, wgtb (total wt v) thr = true <-> exists y, In y v /\ y <> rz) ->
  2 <= length hs -> oc < length hs -> Forall2 (stored imax) sites Ds -> Forall2 (stored imax) hs Dhs -> Forall nonempty (sites ++ hs) ->
  mps_fit (@blegs G N) (bdual G) sites x x' -> mpo_fit (@blegs G N) (bdual G) hs sites sites o o' ->
  carries_only x cx -> carries_only x' cx' -> carries_only o co -> carries_only o' co' -> order_ok last_first co = true -> order_ok last_first co' = true ->
  qop G co (qprod G (map (@b_rule G N) hs)) = co' ->
  hermitian_chain Dhs Dl De (map (size 1) Ds) -> canonical Ds oc -> chain_norm Ds (bsz G x) (bsz G x') = ro -> 1 <= max_iter ->
  (forall l e k s Es p, run_edges last_first hs sites l e -> k < steps -> b_reached last_first imax eps gtb lower wt dsvd thr mn mx undef hs sites oc k s Es -> d_oc s = Z.of_nat p ->
    step_fine imax eps gtb dsvd mx hs l e (d_sites s) p) ->
  (forall k s Es p Dk, k < steps -> b_reached last_first imax eps gtb lower wt dsvd thr mn mx undef hs sites oc k s Es -> d_oc s = Z.of_nat p ->
    Forall2 (stored imax) (d_sites s) Dk -> chain_norm Dk (bsz G x) (bsz G x') = ro -> improvable_at eps Dhs Dl De Dk p) ->
  exists E DE sites' Ds', b_dmrg last_first imax eps e_init crit gtb lower wt dsvd thr mn mx undef max_iter hs sites oc = Some (Ok (E, sites', Z.of_nat (start_pos (length sites) oc))) /\
    stored imax E DE /\ blegs E = [] /\ Forall2 (stored imax) sites' Ds' /\
    dv DE [] = chain_energy Dhs Dl De Ds' /\ le N (dv DE []) (chain_energy Dhs Dl De Ds) /\ chain_norm Ds' (bsz G x) (bsz G x') = ro /\ canonical Ds' (b_final_centre (length sites) oc) /\
    exists k s Es DEs, 1 <= k <= steps /\ b_reached last_first imax eps gtb lower wt dsvd thr mn mx undef hs sites oc k s Es /\ Forall2 (stored imax) Es DEs /\ falling (chain_energy Dhs Dl De Ds) DEs /\ E = last Es E.
Proof. exact run_energy. Qed.
Print Assumptions C84_energy_partial.

(** Two spins up with [- Z Z], any number of sweeps from any centre: the run returns a chain with energy at most the one given, and conserves what (a) says. *)
Example C84_ex : forall (N : numeric) (eps e_init crit : N) (last_first : bool) (undef : btensor z_group N) (oc max_iter : nat), (forall x : N, rconj x = x) -> le N rz eps -> eps <> rz -> oc < 2 -> 1 <= max_iter ->
  let el := @d_full N [1; 1; 1] ro in
  exists E DE sites' Ds', b_dmrg last_first 100 eps e_init crit (n_gtb N) (half N) (count N) (ex_svd1 N) (0%N : w_N) 1 10 undef max_iter [zh1 N; zh2 N] [xa N; zb N] oc = Some (Ok (E, sites', 0%Z)) /\
    stored 100 E DE /\ Forall2 (stored 100) sites' Ds' /\ dv DE [] = chain_energy [dzh1 N; dzh2 N] el el Ds' /\ le N (dv DE []) (chain_energy [dzh1 N; dzh2 N] el el [da N; da N]) /\ chain_norm Ds' 1 1 = ro /\
    mps_fit (@blegs z_group N) (bdual z_group) sites' bond bond /\ map (fun A => nth 1 (blegs A) ([], [])) sites' = [spin; spin] /\ qprod z_group (map (@b_rule z_group N) sites') = q 2 /\ neutral_scalar 100 E.
Proof.
  intros N eps e_init crit lf undef oc mi RE P Z Ho Hi el. destruct (z_well N) as (W1 & W2).
  destruct (@C84_energy_partial z_group N w_N lf 100 eps e_init crit (n_gtb N) (half N) (count N) (ex_svd1 N) 0%N 1 10 undef [zh1 N; zh2 N] [xa N; zb N] [dzh1 N; dzh2 N] [da N; da N] bond bond bond bond (q 0) (q 0) (q 0) (q 0) oc mi
    P Z (@gtb_order N RE) (half_lower N) (half_0 N) ltac:(lia) (@svd1_gtb N RE) (fun v => @count_exact N RE v) ltac:(cbn; lia) Ho (z_dens N) (den_hs N) (z_nonempty N) (z_fit N) (z_ofit N) z_carries z_carries z_carries z_carries (z_order lf) (z_order lf) (z_rule N)
    (z_hermitian N) (z_canonical N oc) (z_norm N) Hi) as (E & DE & sites' & Ds' & ER & D1 & _ & D2 & D3 & D4 & D5 & _).
  - intros l e k s Es p RG Hk HR Ep. apply (@z_reached N RE eps P Z lf undef oc mi Ho l e k s Es p RG Hk HR Ep).
  - intros k s Es p Dk Hk HR Ep F NV. destruct (@z_bedges N RE eps lf oc Ho) as (l & e & RG & _). apply (@z_reached N RE eps P Z lf undef oc mi Ho l e k s Es p RG Hk HR Ep); assumption.
  - change (start_pos (length [xa N; zb N]) oc) with (start_pos 2 oc) in ER. assert (Q : start_pos 2 oc = 0) by (destruct oc as [|[|]]; [reflexivity|reflexivity|lia]). rewrite Q in ER. exists E, DE, sites', Ds'. do 6 (split; [assumption|]).
    destruct (@C84_conserved_partial z_group N w_N lf 100 eps e_init crit (n_gtb N) (half N) (count N) (ex_svd1 N) 0%N 1 10 undef [zh1 N; zh2 N] [xa N; zb N] bond bond bond bond (q 0) (q 0) (q 0) (q 0) oc mi E sites' 0%Z
      (@gtb_order N RE) (half_lower N) (half_0 N) ltac:(lia)) as (_ & R2 & R3 & R4 & _ & R6 & _); try assumption; try apply z_carries; try apply z_order; try apply z_rule; try apply z_fit; try apply z_ofit; try apply z_nonempty.
    + intros M HM. destruct (@svd1_gtb N RE M HM) as (A & _ & B & C). auto.
    + cbn. lia.
    + intros l e k s Es p RG Hk HR Ep. apply (@z_reached N RE eps P Z lf undef oc mi Ho l e k s Es p RG Hk HR Ep).
    + split; [exact R2|]. split; [rewrite R3; cbn [map]; rewrite tl_a, tl_zb; reflexivity|]. split; [rewrite R4; apply sig_eq; reflexivity|exact R6].
Qed.
Print Assumptions C84_ex.
