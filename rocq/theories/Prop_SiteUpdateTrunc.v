(** What the truncation of an update of two sites leaves of the state found (C75). *)
From Verif Require Import Base Ring SpecIndex Dense BTensor Tensordot Chain SpecChain SpecMove SpecSvd Truncate SpecTruncate BTrunc MoveOc Num Lanczos SpecLanczos SiteUpdate SpecSiteUpdate SiteUpdateThms SiteUpdateTrunc LanczosEx SiteUpdateEx BellEx.

(** C75. The update finds a unit vector [U] of the pair whose energy is the one reported and is not above that of the old pair. The squares of the
    singular values of [U] add up to one; the overlap of [U] with the pair of new sites is a number that is not negative and whose square is the sum
    of the squares of those that are kept. Fewer than all are kept with more weight lost than the threshold only when the maximum is reached. *)
Theorem C75_truncated : forall (N : numeric) (W : weights) (eps : N) (dsvd : dense N -> dense N * dense N * dense N) (wt : N -> W) (thr : W) (mn mx : Z),
  le N rz eps -> eps <> rz ->
  (forall M, (exists m n, dsh M = [m; n]) -> thin M (dsvd M) /\ real_entries (snd (fst (dsvd M)))) ->
  (forall M, (exists m n, dsh M = [m; n]) -> descending (snd (fst (dsvd M)))) ->
  (1 <= mn <= mx)%Z ->
  forall (forward : bool) pre a a' post hpre h h' hpost (l e : dense N) x o x' o' y p k p' y' Le He Re,
  dsh l = [x; o; x] -> dsh e = [x'; o'; x'] -> length hpre = length pre ->
  mps_fit (@dsh N) (fun k => k) (pre ++ [a; a'] ++ post) x x' ->
  mpo_fit (@dsh N) (fun k => k) (hpre ++ [h; h'] ++ hpost) (pre ++ [a; a'] ++ post) (pre ++ [a; a'] ++ post) o o' ->
  dsh a = [y; p; k] -> dsh a' = [k; p'; y'] ->
  left_envs t_tdot t_conj hpre pre l = Ok Le -> right_envs t_tdot t_conj hpost post e = Ok Re -> two_sites_hamil t_tdot t_perm h h' = Ok He ->
  Forall left_isometry pre -> Forall right_isometry post -> hermitian_chain (hpre ++ [h; h'] ++ hpost) l e (map (size 1) (pre ++ [a; a'] ++ post)) ->
  chain_norm (pre ++ [a; a'] ++ post) x x' = ro ->
  improvable [y; p; p'; y'] (local_matrix pre hpre h h' post hpost l e) eps (pair_amp a a') ->
  (Z.of_nat (Nat.min (y * p) (p' * y')) <= 2 ^ 63)%Z ->
  (forall s Et U M, merge t_tdot a a' = Ok s -> t_update eps s He Le Re = Ok (Et, U) -> cut_matrix 2 U M -> isometries M (dsvd M)) ->
  exists Et b b' k' U M d ov, t_site_update eps dsvd wt thr mn mx forward a a' He Le Re = Some (Ok (Et, b, b')) /\ dsh b = [y; p; k'] /\ dsh b' = [k'; p'; y'] /\ 1 <= k' <= Nat.min (y * p) (p' * y') /\
    dsh U = [y; p; p'; y'] /\ sprod [y; p; p'; y'] (dv U) (dv U) = ro /\ energy [y; p; p'; y'] (local_matrix pre hpre h h' post hpost l e) (dv U) = dv Et [] /\
    le N (dv Et []) (energy [y; p; p'; y'] (local_matrix pre hpre h h' post hpost l e) (pair_amp a a')) /\
    cut_matrix 2 U M /\ d = snd (fst (dsvd M)) /\ sumf N (fun c => rmul (dv d [c]) (dv d [c])) (seq 0 (Nat.min (y * p) (p' * y'))) = ro /\
    (k' < Nat.min (y * p) (p' * y') -> wgtb (lost_after wt k' (values d)) thr = true -> Z.of_nat k' = mx) /\
    sprod [y; p; p'; y'] (dv U) (pair_amp b b') = ov /\ le N rz ov /\ rmul ov ov = sumf N (fun c => rmul (dv d [c]) (dv d [c])) (seq 0 k').
Proof. exact (fun N W eps dsvd wt thr mn mx P Z T V B => @site_update_trunc N W eps dsvd wt thr mn mx P Z T V B). Qed.
Print Assumptions C75_truncated.

(** "The energy reported is that of the new chain" is false when a singular value is discarded: two spins up, the product of the first Pauli matrices,
    bonds of dimension one. The energy reported is minus one, that of the new chain is zero, and zero was also that of the old one. *)
Theorem C75_truncated_refuted : forall (N : numeric) (W : weights) (eps : N) (wt : N -> W) (thr : W) (forward : bool),
  le N rz eps -> eps <> rz -> le N (rmul eps eps) ro ->
  exists dsvd : dense N -> dense N * dense N * dense N,
  (forall M, (exists m n, dsh M = [m; n]) -> thin M (dsvd M) /\ real_entries (snd (fst (dsvd M)))) /\
  (forall M, (exists m n, dsh M = [m; n]) -> descending (snd (fst (dsvd M)))) /\
  exists hs a He b b' Et, let l := ex_env N in two_sites_hamil t_tdot t_perm (nth 0 hs a) (nth 1 hs a) = Ok He /\ mps_fit (@dsh N) (fun k => k) [a; a] 1 1 /\ mpo_fit (@dsh N) (fun k => k) hs [a; a] [a; a] 1 1 /\
    hermitian_chain hs l l (map (size 1) [a; a]) /\ chain_norm [a; a] 1 1 = ro /\
    improvable [1; 2; 2; 1] (local_matrix [] [] (nth 0 hs a) (nth 1 hs a) [] [] l l) eps (pair_amp a a) /\
    (forall s Et U M, merge t_tdot a a = Ok s -> t_update eps s He l l = Ok (Et, U) -> cut_matrix 2 U M -> isometries M (dsvd M)) /\
    t_site_update eps dsvd wt thr 1 1 forward a a He l l = Some (Ok (Et, b, b')) /\ chain_norm [b; b'] 1 1 = ro /\ dv Et [] = ropp ro /\ expectation [b; b'] [b; b'] hs l l = rz.
Proof. exact (fun N W eps wt thr fwd P Z O => ex_intro _ (@ex_bell N) (Logic.conj (@bell_thin N) (Logic.conj (@bell_val N) (@bell_refuted N eps P Z O W wt thr fwd)))). Qed.
Print Assumptions C75_truncated_refuted.

(** The hypotheses of C75_truncated hold of the same update, where one of two singular values is kept. *)
Example C75_truncated_ex : forall (N : numeric) (eps : N), le N rz eps -> eps <> rz -> le N (rmul eps eps) ro ->
  exists He Et b b' U ov, two_sites_hamil t_tdot t_perm (ex_sx N) (ex_sx N) = Ok He /\
    t_site_update eps (@ex_bell N) (fun _ => 0%N : w_N) 0%N 1 1 true (ex_spin N) (ex_spin N) He (ex_env N) (ex_env N) = Some (Ok (Et, b, b')) /\
    dsh b = [1; 2; 1] /\ sprod [1; 2; 2; 1] (dv U) (dv U) = ro /\ sprod [1; 2; 2; 1] (dv U) (pair_amp b b') = ov /\ le N rz ov.
Proof.
  intros N eps P Z O. destruct (bell_hamil N) as (He & EH & _). exists He.
  destruct (@C75_truncated N w_N eps (@ex_bell N) (fun _ => 0%N : w_N) 0%N 1 1 P Z (@bell_thin N) (@bell_val N) (Logic.conj (Z.le_refl 1) (Z.le_refl 1))) with
    (forward := true) (pre := @nil (dense N)) (a := ex_spin N) (a' := ex_spin N) (post := @nil (dense N)) (hpre := @nil (dense N)) (h := ex_sx N) (h' := ex_sx N) (hpost := @nil (dense N))
    (l := ex_env N) (e := ex_env N) (x := 1) (o := 1) (x' := 1) (o' := 1) (y := 1) (p := 2) (k := 1) (p' := 2) (y' := 1) (Le := ex_env N) (He := He) (Re := ex_env N)
    as (Et & b & b' & k' & U & M & d & ov & E1 & E2 & E3 & E4 & E5 & E6 & E7 & E8 & E9 & E10 & E11 & E12 & E13 & E14 & E15); try reflexivity; try (constructor; fail).
  - exists 2, 1. split; [reflexivity|]. exists 2, 1. split; reflexivity.
  - exists 1, 2, 2. repeat split. exists 1, 2, 2. repeat split.
  - exact EH.
  - apply bell_herm.
  - apply ex_norm.
  - apply improvable_ext with (M' := @MXX N) (v' := pair_amp (ex_spin N) (ex_spin N)); [exact (@bell_local N)|reflexivity|apply up_improvable; [exact O|apply spin_up]].
  - cbn. lia.
  - intros s Et' U M Es EU CM. exact (@bell_iso_update N eps P Z O He s Et' U M EH Es EU CM).
  - destruct (@bell_site N eps P Z O w_N (fun _ => 0%N : w_N) 0%N true (ex_spin N) (ex_spin N) He EH eq_refl eq_refl (@spin_up N)) as (Et2 & b2 & b2' & F1 & _ & _ & F2 & _). rewrite F1 in E1. injection E1 as -> -> ->.
    exists Et, b, b', U, ov. auto 10.
Qed.
