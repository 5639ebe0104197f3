(** A whole run of DMRG on dense tensors (C76). *)
From Verif Require Import Base Ring SpecIndex Dense BTensor Tensordot Chain SpecChain SpecMove SpecSvd Truncate MoveOc Num Lanczos SpecLanczos SpecSiteUpdate Dmrg DmrgRun SpecDmrgRun DmrgRunMain LanczosEx SiteUpdateEx DmrgRunEx.

(** C76. Full claim: for every Hermitian chain of operators and every normalized chain in canonical form with two sites at least, [dmrg] returns the
    energy of the chain that it leaves behind, not above the energy of the chain given; the new chain has the same dimensions, norm one and
    canonical form.
    First part, for every run that returns, whatever chain it starts from, canonical and normalized or not: dimensions, norm, canonical form. The centre reported is the position where the run started, that of
    the chain is [final_centre] (C43). The decomposition [dsvd] stands for [torch::svd]; it has to be right for the matrices that this run meets.
    The write past the end of the default edges (C65) is taken to be harmless: [0 < slack]. *)
Theorem C76_returned : forall (N : numeric) (W : weights) (slack : nat) (eps e_init crit : N) (dsvd : dense N -> dense N * dense N * dense N) (wt : N -> W) (thr : W) (mn mx : Z) (undef : dense N),
  0 < slack ->
  (forall M, (exists m n, dsh M = [m; n]) -> thin M (dsvd M) /\ real_entries (snd (fst (dsvd M)))) ->
  (forall M, (exists m n, dsh M = [m; n]) -> descending (snd (fst (dsvd M)))) ->
  (1 <= mn <= mx)%Z ->
  forall (hs sites : list (dense N)) x o x' o' oc max_iter,
  let l := @d_full N [x; o; x] ro in let e := @d_full N [x'; o'; x'] ro in
  let total := max_iter * sweep_size (length sites) in
  2 <= length hs -> oc < length hs ->
  mps_fit (@dsh N) (fun k => k) sites x x' -> mpo_fit (@dsh N) (fun k => k) hs sites sites o o' ->
  hermitian_chain hs l e (map (size 1) sites) ->
  (forall k s Es p, k < total -> reached slack eps dsvd wt thr mn mx undef hs sites oc k s Es -> d_oc s = Z.of_nat p ->
    svd_right dsvd eps hs l e (d_sites s) p /\ forall b, bond_max (d_sites s) p b -> (Z.of_nat b <= 2 ^ 63)%Z) ->
  (forall k s Es A Mx, k <= total -> reached slack eps dsvd wt thr mn mx undef hs sites oc k s Es -> d_oc s = 0%Z -> nth_error (d_sites s) 1 = Some A -> cut_matrix 1 A Mx -> isometries Mx (dsvd Mx)) ->
  1 <= max_iter ->
  forall E sites' c, t_dmrg slack eps e_init crit dsvd wt thr mn mx undef max_iter hs sites oc = Some (Ok (E, sites', c)) ->
  mps_fit (@dsh N) (fun k => k) sites' x x' /\ map (size 1) sites' = map (size 1) sites /\ chain_norm sites' x x' = ro /\
  c = Z.of_nat (start_pos (length sites) oc) /\ canonical sites' (final_centre (length sites) oc).
Proof. exact (fun N W slack eps e_init crit dsvd wt thr mn mx undef H1 H2 H3 H4 hs sites x o x' o' oc mi => @run_returned N W slack eps e_init crit dsvd wt thr mn mx undef H1 H2 H3 H4 hs sites x o x' o' oc mi). Qed.
Print Assumptions C76_returned.

(** Second part: that the run returns, and the energy. Proved for runs in which every pair met has a residual of norm [eps] at least or is an
    eigenvector with a negative eigenvalue (see C75_update_refuted for the others) and no singular value is discarded (with fewer, the energy
    reported is that before truncation). [eps] is 1e-15 in the code. *)
Theorem C76_energy_partial : forall (N : numeric) (W : weights) (slack : nat) (eps e_init crit : N) (dsvd : dense N -> dense N * dense N * dense N) (wt : N -> W) (thr : W) (mn mx : Z) (undef : dense N),
  0 < slack ->
  (forall M, (exists m n, dsh M = [m; n]) -> thin M (dsvd M) /\ real_entries (snd (fst (dsvd M)))) ->
  (forall M, (exists m n, dsh M = [m; n]) -> descending (snd (fst (dsvd M)))) ->
  (1 <= mn <= mx)%Z ->
  forall (hs sites : list (dense N)) x o x' o' oc max_iter,
  let l := @d_full N [x; o; x] ro in let e := @d_full N [x'; o'; x'] ro in
  let total := max_iter * sweep_size (length sites) in
  2 <= length hs -> oc < length hs ->
  mps_fit (@dsh N) (fun k => k) sites x x' -> mpo_fit (@dsh N) (fun k => k) hs sites sites o o' ->
  canonical sites oc -> hermitian_chain hs l e (map (size 1) sites) ->
  (forall k s Es p, k < total -> reached slack eps dsvd wt thr mn mx undef hs sites oc k s Es -> d_oc s = Z.of_nat p ->
    svd_right dsvd eps hs l e (d_sites s) p /\ forall b, bond_max (d_sites s) p b -> (Z.of_nat b <= 2 ^ 63)%Z) ->
  (forall k s Es A Mx, k <= total -> reached slack eps dsvd wt thr mn mx undef hs sites oc k s Es -> d_oc s = 0%Z -> nth_error (d_sites s) 1 = Some A -> cut_matrix 1 A Mx -> isometries Mx (dsvd Mx)) ->
  1 <= max_iter -> le N rz eps -> eps <> rz -> le N eps ro -> chain_norm sites x x' = ro ->
  (forall k s Es p, k < total -> reached slack eps dsvd wt thr mn mx undef hs sites oc k s Es -> d_oc s = Z.of_nat p -> improvable_at eps hs l e (d_sites s) p) ->
  (forall k s Es p s' Es', k < total -> reached slack eps dsvd wt thr mn mx undef hs sites oc k s Es -> d_oc s = Z.of_nat p ->
    reached slack eps dsvd wt thr mn mx undef hs sites oc (S k) s' Es' -> full_bond (d_sites s') p) ->
  exists E sites' c, t_dmrg slack eps e_init crit dsvd wt thr mn mx undef max_iter hs sites oc = Some (Ok (E, sites', c)) /\
    dv E [] = chain_energy hs l e sites' /\ le N (dv E []) (chain_energy hs l e sites) /\
    exists k s Es, 1 <= k <= total /\ reached slack eps dsvd wt thr mn mx undef hs sites oc k s Es /\ falling (chain_energy hs l e sites) Es /\ E = last Es E.
Proof. exact (fun N W slack eps e_init crit dsvd wt thr mn mx undef H1 H2 H3 H4 hs sites x o x' o' oc mi A1 A2 A3 A4 C A5 A6 A7 A8 => @run_energy_ok N W slack eps e_init crit dsvd wt thr mn mx undef H1 H2 H3 H4 hs sites x o x' o' oc mi A1 A2 A3 A4 A5 A6 A7 A8 C). Qed.
Print Assumptions C76_energy_partial.

(** Third part: the energy for runs from a chain that need not be canonical or normalized. At the end of the run the last update is that of a
    normalized pair in canonical form, once the run has passed over the whole chain; that is the case for runs of more than one sweep and for runs
    from the first site, except on three sites (see C85_three_sites_refuted). *)
Theorem C76_any_start_partial : forall (N : numeric) (W : weights) (slack : nat) (eps e_init crit : N) (dsvd : dense N -> dense N * dense N * dense N) (wt : N -> W) (thr : W) (mn mx : Z) (undef : dense N),
  0 < slack ->
  (forall M, (exists m n, dsh M = [m; n]) -> thin M (dsvd M) /\ real_entries (snd (fst (dsvd M)))) ->
  (forall M, (exists m n, dsh M = [m; n]) -> descending (snd (fst (dsvd M)))) ->
  (1 <= mn <= mx)%Z ->
  forall (hs sites : list (dense N)) x o x' o' oc max_iter,
  let l := @d_full N [x; o; x] ro in let e := @d_full N [x'; o'; x'] ro in
  let total := max_iter * sweep_size (length sites) in
  2 <= length hs -> oc < length hs ->
  mps_fit (@dsh N) (fun k => k) sites x x' -> mpo_fit (@dsh N) (fun k => k) hs sites sites o o' ->
  hermitian_chain hs l e (map (size 1) sites) ->
  (forall k s Es p, k < total -> reached slack eps dsvd wt thr mn mx undef hs sites oc k s Es -> d_oc s = Z.of_nat p ->
    svd_right dsvd eps hs l e (d_sites s) p /\ forall b, bond_max (d_sites s) p b -> (Z.of_nat b <= 2 ^ 63)%Z) ->
  (forall k s Es A Mx, k <= total -> reached slack eps dsvd wt thr mn mx undef hs sites oc k s Es -> d_oc s = 0%Z -> nth_error (d_sites s) 1 = Some A -> cut_matrix 1 A Mx -> isometries Mx (dsvd Mx)) ->
  1 <= max_iter ->
  forall E sites' c, t_dmrg slack eps e_init crit dsvd wt thr mn mx undef max_iter hs sites oc = Some (Ok (E, sites', c)) ->
  le N rz eps -> eps <> rz ->
  exists k s1 Es1 s2 Es2 p, reached slack eps dsvd wt thr mn mx undef hs sites oc k s1 Es1 /\ reached slack eps dsvd wt thr mn mx undef hs sites oc (S k) s2 Es2 /\
    sweep_size (length hs) <= S k <= total /\ d_oc s1 = Z.of_nat p /\ E = last Es2 E /\
    ((oc = 0 /\ length hs <> 3) \/ sweep_size (length hs) < S k -> improvable_at eps hs l e (d_sites s1) p -> full_bond (d_sites s2) p -> dv E [] = chain_energy hs l e sites').
Proof. exact (fun N W slack eps e_init crit dsvd wt thr mn mx undef H1 H2 H3 H4 hs sites x o x' o' oc mi => @run_last_energy N W slack eps e_init crit dsvd wt thr mn mx undef H1 H2 H3 H4 hs sites x o x' o' oc mi). Qed.
Print Assumptions C76_any_start_partial.

(** A spin up and a site of dimension one, with the first Pauli matrix on the spin: the run ends with energy minus one. *)
Example C76_ex : forall (N : numeric) (eps e_init crit : N) (undef : dense N) (max_iter : nat), le N rz eps -> eps <> rz -> le N eps ro -> 1 <= max_iter ->
  exists E sites', t_dmrg 1 eps e_init crit (@ex_col N) (fun _ => 0%N : w_N) 0%N 1 10 undef max_iter (ex_ham N) (ex_chain N) 0 = Some (Ok (E, sites', 0%Z)) /\
    dv E [] = ropp ro /\ chain_energy (ex_ham N) (ex_env N) (ex_env N) sites' = ropp ro /\ chain_norm sites' 1 1 = ro /\ canonical sites' 0.
Proof.
  intros N eps e_init crit undef mi P Z O Hi. assert (B : (1 <= 1 <= 10)%Z) by lia.
  pose proof (@reach2 N w_N 1 eps crit (fun _ => 0%N : w_N) 0%N 1 10 undef (le_n 1) P Z O B) as R2. pose proof (@pos2 N w_N 1 eps crit (fun _ => 0%N : w_N) 0%N 1 10 undef (le_n 1) P Z O B) as P2. pose proof (@move2 N w_N 1 eps crit (fun _ => 0%N : w_N) 0%N 1 10 undef (le_n 1) P Z O B) as V2.
  assert (G : forall k s Es p, k < mi * sweep_size 2 -> reached 1 eps (@ex_col N) (fun _ => 0%N : w_N) 0%N 1 10 undef (ex_ham N) (ex_chain N) 0 k s Es -> d_oc s = Z.of_nat p ->
    svd_right (@ex_col N) eps (ex_ham N) (ex_env N) (ex_env N) (d_sites s) p /\ forall b, bond_max (d_sites s) p b -> (Z.of_nat b <= 2 ^ 63)%Z).
  { intros k s Es p _ R Ep. rewrite (P2 k s Es p R Ep). exact (@state2_good N w_N 1 eps crit (fun _ => 0%N : w_N) (le_n 1) k s Es (R2 k s Es R)). }
  assert (V : forall k s Es A Mx, k <= mi * sweep_size 2 -> reached 1 eps (@ex_col N) (fun _ => 0%N : w_N) 0%N 1 10 undef (ex_ham N) (ex_chain N) 0 k s Es -> d_oc s = 0%Z -> nth_error (d_sites s) 1 = Some A -> cut_matrix 1 A Mx -> isometries Mx (@ex_col N Mx)).
  { intros k s Es A Mx _ R _. exact (V2 k s Es A Mx R). }
  destruct (@C76_energy_partial N w_N 1 eps e_init crit (@ex_col N) (fun _ => 0%N : w_N) 0%N 1 10 undef) with (hs := ex_ham N) (sites := ex_chain N) (x := 1) (o := 1) (x' := 1) (o' := 1) (oc := 0) (max_iter := mi)
    as (E & sites' & c & ER & EE & _ & k & s & Es & Hk & R & _ & EL); auto.
  - exact (@col_thin N).
  - exact (@col_val N).
  - cbn; lia.
  - apply fit2.
  - apply ofit2.
  - apply canonical2.
  - apply herm2.
  - apply norm2_.
  - intros k s Es p _ R Ep. rewrite (P2 k s Es p R Ep). exact (@state2_improve N eps P O k s Es (R2 k s Es R)).
  - intros k s Es p s' Es' _ R Ep R'. rewrite (P2 k s Es p R Ep). destruct (R2 (S k) s' Es' R') as (_ & b & b' & -> & Sb & Sb' & _). apply full2; assumption.
  - destruct (@C76_returned N w_N 1 eps e_init crit (@ex_col N) (fun _ => 0%N : w_N) 0%N 1 10 undef) with (hs := ex_ham N) (sites := ex_chain N) (x := 1) (o := 1) (x' := 1) (o' := 1) (oc := 0) (max_iter := mi) (E := E) (sites' := sites') (c := c)
      as (_ & _ & NN & -> & CC); auto; try (cbn; lia); try exact (@col_thin N); try exact (@col_val N); try apply fit2; try apply ofit2; try apply herm2.
    destruct (R2 k s Es R) as (_ & b & b' & _ & _ & _ & _ & [(Q & _) | (_ & _ & Es' & E' & -> & VE)]); [lia|]. rewrite last_last in EL. subst E'.
    exists E, sites'. split; [exact ER|]. split; [exact VE|]. split; [rewrite <- VE; symmetry; exact EE|]. split; [exact NN|exact CC].
Qed.

(** With no iteration ([maximum_iterations = 0]) the energy returned is the initial value of the variable, 100000 in the code, for every chain. *)
Theorem C76_no_iteration_refuted : forall (N : numeric) (W : weights) (slack : nat) (eps e_init crit : N) (dsvd : dense N -> dense N * dense N * dense N) (wt : N -> W) (thr : W) (mn mx : Z) (undef : dense N),
  0 < slack -> le N eps ro ->
  (forall M, (exists m n, dsh M = [m; n]) -> thin M (dsvd M) /\ real_entries (snd (fst (dsvd M)))) ->
  (forall M, (exists m n, dsh M = [m; n]) -> descending (snd (fst (dsvd M)))) ->
  exists hs sites, let l := @d_full N [1; 1; 1] ro in mps_fit (@dsh N) (fun k => k) sites 1 1 /\ mpo_fit (@dsh N) (fun k => k) hs sites sites 1 1 /\ canonical sites 0 /\ hermitian_chain hs l l (map (size 1) sites) /\ chain_norm sites 1 1 = ro /\
    exists E sites' c, t_dmrg slack eps e_init crit dsvd wt thr mn mx undef 0 hs sites 0 = Some (Ok (E, sites', c)) /\ dv E [] = e_init /\ chain_energy hs l l sites' = rz.
Proof. exact (fun N W slack eps e_init crit dsvd wt thr mn mx undef H1 H2 H3 H4 => @nothing2 N W slack eps e_init crit dsvd wt thr mn mx undef H1 H2 H3 H4). Qed.
Print Assumptions C76_no_iteration_refuted.
