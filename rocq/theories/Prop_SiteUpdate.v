(** The update of a pair of sites of a dense chain (C75). *)
From Verif Require Import Base Ring SpecIndex Dense BTensor Tensordot Chain SpecChain SpecMove SpecSvd Truncate MoveOc Num Lanczos SpecLanczos SiteUpdate SpecSiteUpdate SiteUpdateThms LanczosEx SiteUpdateEx.

(** C75. Full claim: for every normalized chain with isometries on both sides of a pair of sites and every Hermitian chain of operators, the update
    of the pair gives a normalized chain, the first new site (moving forward) or the second one (moving back) is an isometry, the new bond is
    within the limits, and when no singular value is discarded the energy reported is that of the new chain and not above that of the old one.
    Proved when the residual of the pair is at least [eps] or the pair is an eigenvector with negative eigenvalue; for eigenvectors whose energy is
    not negative see C75_update_refuted. [torch::svd] is the argument [dsvd]. *)
Theorem C75_update_partial : forall (N : numeric) (W : weights) (eps : N) (dsvd : dense N -> dense N * dense N * dense N) (wt : N -> W) (thr : W) (mn mx : Z),
  le N rz eps -> eps <> rz ->
  (forall M, (exists m n, dsh M = [m; n]) -> thin M (dsvd M) /\ real_entries (snd (fst (dsvd M)))) ->
  (forall M, (exists m n, dsh M = [m; n]) -> descending (snd (fst (dsvd M)))) ->
  (1 <= mn <= mx)%Z ->
  forall (forward : bool) pre a a' post hpre h h' hpost (l e : dense N) x o x' o' y p k p' y' Le He Re,
  dsh l = [x; o; x] -> dsh e = [x'; o'; x'] -> length hpre = length pre ->
  mps_fit (@dsh N) (fun k => k) (pre ++ [a; a'] ++ post) x x' ->
  mpo_fit (@dsh N) (fun k => k) (hpre ++ [h; h'] ++ hpost) (pre ++ [a; a'] ++ post) (pre ++ [a; a'] ++ post) o o' ->
  dsh a = [y; p; k] -> dsh a' = [k; p'; y'] ->
  left_envs t_tdot t_conj hpre pre l = Ok Le -> right_envs t_tdot t_conj hpost post e = Ok Re -> two_sites_hamil t_tdot t_perm h h' = Ok He ->
  Forall left_isometry pre -> Forall right_isometry post -> hermitian_chain (hpre ++ [h; h'] ++ hpost) l e (map (size 1) (pre ++ [a; a'] ++ post)) ->
  chain_norm (pre ++ [a; a'] ++ post) x x' = ro ->
  improvable [y; p; p'; y'] (local_matrix pre hpre h h' post hpost l e) eps (pair_amp a a') ->
  (Z.of_nat (Nat.min (y * p) (p' * y')) <= 2 ^ 63)%Z ->
  (forall s Et U M, merge t_tdot a a' = Ok s -> t_update eps s He Le Re = Ok (Et, U) -> cut_matrix 2 U M -> isometries M (dsvd M)) ->
  exists Et b b' k', t_site_update eps dsvd wt thr mn mx forward a a' He Le Re = Some (Ok (Et, b, b')) /\ dsh b = [y; p; k'] /\ dsh b' = [k'; p'; y'] /\
    mps_fit (@dsh N) (fun k => k) (pre ++ [b; b'] ++ post) x x' /\ chain_norm (pre ++ [b; b'] ++ post) x x' = ro /\
    (if forward then left_isometry b else right_isometry b') /\
    1 <= k' <= Nat.min (y * p) (p' * y') /\ (Z.min mn (Z.of_nat (Nat.min (y * p) (p' * y'))) <= Z.of_nat k' <= mx)%Z /\
    (k' = Nat.min (y * p) (p' * y') ->
      expectation (pre ++ [b; b'] ++ post) (pre ++ [b; b'] ++ post) (hpre ++ [h; h'] ++ hpost) l e = dv Et [] /\
      le N (dv Et []) (expectation (pre ++ [a; a'] ++ post) (pre ++ [a; a'] ++ post) (hpre ++ [h; h'] ++ hpost) l e)).
Proof. exact (fun N W eps dsvd wt thr mn mx P Z T V B => @site_update_ok N W eps dsvd wt thr mn mx P Z T V B). Qed.
Print Assumptions C75_update_partial.

(** An eigenvector with energy one: the updated pair is zero and its singular values are divided by zero ([UB] of the model). *)
Theorem C75_update_refuted : forall (N : numeric) (W : weights) (eps : N) (dsvd : dense N -> dense N * dense N * dense N) (wt : N -> W) (thr : W) (mn mx : Z) (forward : bool),
  le N rz eps -> eps <> rz ->
  (forall M, (exists m n, dsh M = [m; n]) -> thin M (dsvd M) /\ real_entries (snd (fst (dsvd M)))) ->
  (1 <= mn <= mx)%Z -> (forall M, dsh M = [1; 1] -> isometries M (dsvd M)) ->
  exists a h l He, mps_fit (@dsh N) (fun k => k) [a; a] 1 1 /\ mpo_fit (@dsh N) (fun k => k) [h; h] [a; a] [a; a] 1 1 /\ hermitian_chain [h; h] l l [1; 1] /\
    chain_norm [a; a] 1 1 = ro /\ two_sites_hamil t_tdot t_perm h h = Ok He /\ t_site_update eps dsvd wt thr mn mx forward a a He l l = Some UB.
Proof. exact (fun N W eps dsvd wt thr mn mx fwd P Z T B I => @nan_all N W eps dsvd wt thr mn mx P Z T B I fwd). Qed.
Print Assumptions C75_update_refuted.
Example C75_ex_oracle : forall N : numeric, exists dsvd : dense N -> dense N * dense N * dense N,
  (forall M, (exists m n, dsh M = [m; n]) -> thin M (dsvd M) /\ real_entries (snd (fst (dsvd M)))) /\ (forall M, dsh M = [1; 1] -> isometries M (dsvd M)).
Proof. exact nan_oracle. Qed.

(** Two spins up, the first Pauli matrix on the first of them, two singular values kept. *)
Example C75_ex : forall (N : numeric) (eps : N), le N rz eps -> eps <> rz -> le N (rmul eps eps) ro ->
  exists He Et b b', two_sites_hamil t_tdot t_perm (ex_sx N) (ex_id N) = Ok He /\
    t_site_update eps (@ex_svd N) (fun _ => 0%N : w_N) 0%N 2 10 true (ex_spin N) (ex_spin N) He (ex_env N) (ex_env N) = Some (Ok (Et, b, b')) /\
    dsh b = [1; 2; 2] /\ chain_norm [b; b'] 1 1 = ro /\ left_isometry b /\
    expectation [b; b'] [b; b'] [ex_sx N; ex_id N] (ex_env N) (ex_env N) = dv Et [] /\
    le N (dv Et []) (expectation [ex_spin N; ex_spin N] [ex_spin N; ex_spin N] [ex_sx N; ex_id N] (ex_env N) (ex_env N)).
Proof.
  intros N eps P Z O. destruct (ex_hamil N) as (He & EH & _). exists He.
  destruct (@C75_update_partial N w_N eps (@ex_svd N) (fun _ => 0%N : w_N) 0%N 2 10 P Z (@ex_svd_thin N) (@ex_svd_val N)) with
    (forward := true) (pre := @nil (dense N)) (a := ex_spin N) (a' := ex_spin N) (post := @nil (dense N)) (hpre := @nil (dense N)) (h := ex_sx N) (h' := ex_id N) (hpost := @nil (dense N))
    (l := ex_env N) (e := ex_env N) (x := 1) (o := 1) (x' := 1) (o' := 1) (y := 1) (p := 2) (k := 1) (p' := 2) (y' := 1) (Le := ex_env N) (He := He) (Re := ex_env N)
    as (Et & b & b' & k' & E1 & E2 & E3 & _ & E5 & E6 & E7 & E8 & E9); try reflexivity; try (constructor; fail).
  - lia.
  - exists 2, 1. split; [reflexivity|]. exists 2, 1. split; reflexivity.
  - exists 1, 2, 2. repeat split. exists 1, 2, 2. repeat split.
  - exact EH.
  - apply ex_herm.
  - apply ex_norm.
  - apply ex_improvable, O.
  - cbn. lia.
  - intros s Et U M Es EU. apply ex_update_iso with eps He s Et; auto.
  - assert (k' = 2) by (cbn in E7, E8; lia). subst k'. exists Et, b, b'. split; [exact EH|]. split; [exact E1|]. split; [exact E2|]. split; [exact E5|]. split; [exact E6|]. apply E9. reflexivity.
Qed.
