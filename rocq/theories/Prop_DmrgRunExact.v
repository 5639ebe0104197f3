(** Exactly which pairs the update of two sites gets through, and which runs of DMRG return (C75, C76). *)
From Verif Require Import Base Ring SpecIndex Dense BTensor Tensordot Chain SpecChain SpecMove SpecSvd Truncate MoveOc Num Lanczos SpecLanczos SiteUpdate SpecSiteUpdate Dmrg DmrgRun SpecDmrgRun SpecDmrgStuck
  SiteUpdateExact DmrgRunExact LanczosEx SiteUpdateEx DmrgRunEx DmrgRunExactEx.

(** C75 without a condition on the residual: the update of a normalized pair in canonical form is a division of zero by zero ([UB] of the model) when
    the pair is an eigenvector of its local problem whose energy is not negative, and gives a normalized chain with an isometry and a bond within the
    limits for every other pair. (The energy is C75_update_partial.) *)
Theorem C75_exact : forall (N : numeric) (W : weights) (eps : N) (dsvd : dense N -> dense N * dense N * dense N) (wt : N -> W) (thr : W) (mn mx : Z),
  le N rz eps -> eps <> rz ->
  (forall M, (exists m n, dsh M = [m; n]) -> thin M (dsvd M) /\ real_entries (snd (fst (dsvd M)))) ->
  (forall M, (exists m n, dsh M = [m; n]) -> descending (snd (fst (dsvd M)))) ->
  (1 <= mn <= mx)%Z ->
  forall (forward : bool) pre a a' post hpre h h' hpost (l e : dense N) x o x' o' y p k p' y' Le He Re,
  dsh l = [x; o; x] -> dsh e = [x'; o'; x'] -> length hpre = length pre ->
  mps_fit (@dsh N) (fun k => k) (pre ++ [a; a'] ++ post) x x' ->
  mpo_fit (@dsh N) (fun k => k) (hpre ++ [h; h'] ++ hpost) (pre ++ [a; a'] ++ post) (pre ++ [a; a'] ++ post) o o' ->
  dsh a = [y; p; k] -> dsh a' = [k; p'; y'] ->
  left_envs t_tdot t_conj hpre pre l = Ok Le -> right_envs t_tdot t_conj hpost post e = Ok Re -> two_sites_hamil t_tdot t_perm h h' = Ok He ->
  Forall left_isometry pre -> Forall right_isometry post -> hermitian_chain (hpre ++ [h; h'] ++ hpost) l e (map (size 1) (pre ++ [a; a'] ++ post)) ->
  chain_norm (pre ++ [a; a'] ++ post) x x' = ro ->
  (Z.of_nat (Nat.min (y * p) (p' * y')) <= 2 ^ 63)%Z ->
  (forall s Et U M, merge t_tdot a a' = Ok s -> t_update eps s He Le Re = Ok (Et, U) -> cut_matrix 2 U M -> isometries M (dsvd M)) ->
  (stuck [y; p; p'; y'] (local_matrix pre hpre h h' post hpost l e) (pair_amp a a') -> t_site_update eps dsvd wt thr mn mx forward a a' He Le Re = Some UB) /\
  (~ stuck [y; p; p'; y'] (local_matrix pre hpre h h' post hpost l e) (pair_amp a a') ->
   exists Et b b' k', t_site_update eps dsvd wt thr mn mx forward a a' He Le Re = Some (Ok (Et, b, b')) /\ dsh b = [y; p; k'] /\ dsh b' = [k'; p'; y'] /\
    mps_fit (@dsh N) (fun k => k) (pre ++ [b; b'] ++ post) x x' /\ chain_norm (pre ++ [b; b'] ++ post) x x' = ro /\
    (if forward then left_isometry b else right_isometry b') /\
    1 <= k' <= Nat.min (y * p) (p' * y') /\ (Z.min mn (Z.of_nat (Nat.min (y * p) (p' * y'))) <= Z.of_nat k' <= mx)%Z).
Proof. exact (fun N W eps dsvd wt thr mn mx P Z T V B => @site_update_exact N W eps dsvd wt thr mn mx P Z T V B). Qed.
Print Assumptions C75_exact.

(** C76: a run from a normalized chain in canonical form returns when no pair that it meets is an eigenvector whose energy is not negative. *)
Theorem C76_returns : forall (N : numeric) (W : weights) (slack : nat) (eps e_init crit : N) (dsvd : dense N -> dense N * dense N * dense N) (wt : N -> W) (thr : W) (mn mx : Z) (undef : dense N),
  0 < slack ->
  (forall M, (exists m n, dsh M = [m; n]) -> thin M (dsvd M) /\ real_entries (snd (fst (dsvd M)))) ->
  (forall M, (exists m n, dsh M = [m; n]) -> descending (snd (fst (dsvd M)))) ->
  (1 <= mn <= mx)%Z ->
  forall (hs sites : list (dense N)) x o x' o' oc max_iter,
  let l := @d_full N [x; o; x] ro in let e := @d_full N [x'; o'; x'] ro in
  let total := max_iter * sweep_size (length sites) in
  2 <= length hs -> oc < length hs ->
  mps_fit (@dsh N) (fun k => k) sites x x' -> mpo_fit (@dsh N) (fun k => k) hs sites sites o o' ->
  hermitian_chain hs l e (map (size 1) sites) ->
  1 <= max_iter -> canonical sites oc -> le N rz eps -> eps <> rz -> le N eps ro -> chain_norm sites x x' = ro ->
  (forall k s Es p, k < total -> reached slack eps dsvd wt thr mn mx undef hs sites oc k s Es -> d_oc s = Z.of_nat p ->
    svd_right dsvd eps hs l e (d_sites s) p /\ forall b, bond_max (d_sites s) p b -> (Z.of_nat b <= 2 ^ 63)%Z) ->
  (forall k s Es A Mx, k <= total -> reached slack eps dsvd wt thr mn mx undef hs sites oc k s Es -> d_oc s = 0%Z -> nth_error (d_sites s) 1 = Some A -> cut_matrix 1 A Mx -> isometries Mx (dsvd Mx)) ->
  (forall k s Es p, k < total -> reached slack eps dsvd wt thr mn mx undef hs sites oc k s Es -> d_oc s = Z.of_nat p -> ~ stuck_at hs l e (d_sites s) p) ->
  exists E sites' c, t_dmrg slack eps e_init crit dsvd wt thr mn mx undef max_iter hs sites oc = Some (Ok (E, sites', c)).
Proof. exact (fun N W slack eps e_init crit dsvd wt thr mn mx undef H1 H2 H3 H4 hs sites x o x' o' oc mi => @run_returns N W slack eps e_init crit dsvd wt thr mn mx undef H1 H2 H3 H4 hs sites x o x' o' oc mi). Qed.
Print Assumptions C76_returns.

(** And when such a pair is met during the first sweep, the run ends in a division of zero by zero. *)
Theorem C76_stops : forall (N : numeric) (W : weights) (slack : nat) (eps e_init crit : N) (dsvd : dense N -> dense N * dense N * dense N) (wt : N -> W) (thr : W) (mn mx : Z) (undef : dense N),
  0 < slack ->
  (forall M, (exists m n, dsh M = [m; n]) -> thin M (dsvd M) /\ real_entries (snd (fst (dsvd M)))) ->
  (forall M, (exists m n, dsh M = [m; n]) -> descending (snd (fst (dsvd M)))) ->
  (1 <= mn <= mx)%Z ->
  forall (hs sites : list (dense N)) x o x' o' oc max_iter,
  let l := @d_full N [x; o; x] ro in let e := @d_full N [x'; o'; x'] ro in
  2 <= length hs -> oc < length hs ->
  mps_fit (@dsh N) (fun k => k) sites x x' -> mpo_fit (@dsh N) (fun k => k) hs sites sites o o' ->
  hermitian_chain hs l e (map (size 1) sites) ->
  1 <= max_iter -> canonical sites oc -> le N rz eps -> eps <> rz -> le N eps ro -> chain_norm sites x x' = ro ->
  forall k s Es p,
  (forall m s Es p, m <= k -> reached slack eps dsvd wt thr mn mx undef hs sites oc m s Es -> d_oc s = Z.of_nat p ->
    svd_right dsvd eps hs l e (d_sites s) p /\ forall b, bond_max (d_sites s) p b -> (Z.of_nat b <= 2 ^ 63)%Z) ->
  k < sweep_size (length sites) -> reached slack eps dsvd wt thr mn mx undef hs sites oc k s Es -> d_oc s = Z.of_nat p -> stuck_at hs l e (d_sites s) p ->
  t_dmrg slack eps e_init crit dsvd wt thr mn mx undef max_iter hs sites oc = Some UB.
Proof. exact (fun N W slack eps e_init crit dsvd wt thr mn mx undef H1 H2 H3 H4 hs sites x o x' o' oc mi => @run_stops N W slack eps e_init crit dsvd wt thr mn mx undef H1 H2 H3 H4 hs sites x o x' o' oc mi). Qed.
Print Assumptions C76_stops.

(** C76's full claim is false of every run from an eigenvector of energy one: two sites of dimension one. *)
Theorem C76_eigenvector_refuted : forall (N : numeric) (W : weights) (slack : nat) (eps e_init crit : N) (dsvd : dense N -> dense N * dense N * dense N) (wt : N -> W) (thr : W) (mn mx : Z) (undef : dense N) (max_iter : nat),
  0 < slack -> le N rz eps -> eps <> rz -> le N eps ro ->
  (forall M, (exists m n, dsh M = [m; n]) -> thin M (dsvd M) /\ real_entries (snd (fst (dsvd M)))) ->
  (forall M, (exists m n, dsh M = [m; n]) -> descending (snd (fst (dsvd M)))) ->
  (forall M, dsh M = [1; 1] -> isometries M (dsvd M)) ->
  (1 <= mn <= mx)%Z -> 1 <= max_iter ->
  exists hs sites, mps_fit (@dsh N) (fun k => k) sites 1 1 /\ mpo_fit (@dsh N) (fun k => k) hs sites sites 1 1 /\ canonical sites 0 /\
    hermitian_chain hs (ex_env N) (ex_env N) (map (size 1) sites) /\ chain_norm sites 1 1 = ro /\
    t_dmrg slack eps e_init crit dsvd wt thr mn mx undef max_iter hs sites 0 = Some UB.
Proof.
  exact (fun N W slack eps e_init crit dsvd wt thr mn mx undef mi H1 P Z O HT HV HO B HI =>
    ex_intro _ [ex_op1 N; ex_op1 N] (ex_intro _ [ex_site1 N; ex_site1 N] (Logic.conj (@nan_fit N) (Logic.conj (@nan_ofit N) (Logic.conj (@eigen_canonical N) (Logic.conj (@nan_herm N) (Logic.conj (@nan_norm N)
      (@eigen_run N W slack eps e_init crit dsvd wt thr mn mx undef mi H1 P Z O HT HV HO B HI)))))))).
Qed.
Print Assumptions C76_eigenvector_refuted.

(** The hypotheses of C76_returns hold of the run of C76_ex; those of the refutation hold of its decomposition. *)
Example C76_returns_ex : forall (N : numeric) (eps e_init crit : N) (undef : dense N) (max_iter : nat), le N rz eps -> eps <> rz -> le N eps ro -> 1 <= max_iter ->
  (exists E sites' c, t_dmrg 1 eps e_init crit (@ex_col N) (fun _ => 0%N : w_N) 0%N 1 10 undef max_iter (ex_ham N) (ex_chain N) 0 = Some (Ok (E, sites', c))) /\
  t_dmrg 1 eps e_init crit (@ex_col N) (fun _ => 0%N : w_N) 0%N 1 10 undef max_iter [ex_op1 N; ex_op1 N] [ex_site1 N; ex_site1 N] 0 = Some UB.
Proof.
  intros N eps e_init crit undef mi P Z O Hi. assert (B : (1 <= 1 <= 10)%Z) by lia. split.
  - pose proof (@reach2 N w_N 1 eps crit (fun _ => 0%N : w_N) 0%N 1 10 undef (le_n 1) P Z O B) as R2. pose proof (@pos2 N w_N 1 eps crit (fun _ => 0%N : w_N) 0%N 1 10 undef (le_n 1) P Z O B) as P2. pose proof (@move2 N w_N 1 eps crit (fun _ => 0%N : w_N) 0%N 1 10 undef (le_n 1) P Z O B) as V2.
    apply (@C76_returns N w_N 1 eps e_init crit (@ex_col N) (fun _ => 0%N : w_N) 0%N 1 10 undef) with (x := 1) (o := 1) (x' := 1) (o' := 1); auto; try exact (@col_thin N); try exact (@col_val N); try (cbn; lia); try apply fit2; try apply ofit2; try apply canonical2; try apply herm2; try apply norm2_.
    + intros k s Es p _ R Ep. rewrite (P2 k s Es p R Ep). exact (@state2_good N w_N 1 eps crit (fun _ => 0%N : w_N) (le_n 1) k s Es (R2 k s Es R)).
    + intros k s Es A Mx _ R _. exact (V2 k s Es A Mx R).
    + intros k s Es p _ R Ep. rewrite (P2 k s Es p R Ep). exact (@state2_free N eps k s Es P Z O (R2 k s Es R)).
  - apply eigen_run; auto; [exact (@col_thin N)|exact (@col_val N)|]. intros M SM. exact (@col_iso N M 1 (le_n 1) SM).
Qed.
