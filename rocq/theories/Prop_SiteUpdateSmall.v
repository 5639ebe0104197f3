(** Pairs whose residual is not zero and below the threshold of the update (C75). *)
From Verif Require Import Base Ring SpecIndex Dense BTensor Tensordot Chain SpecChain SpecMove SpecSvd Truncate SpecTruncate BTrunc MoveOc Num Lanczos SpecLanczos SiteUpdate SpecSiteUpdate LanczosEx SiteUpdateEx DmrgRunEx SmallEx.

(** "The energy of the new chain is the one reported and is not above that of the old one" is false when the residual of the pair is not zero and
    smaller than eps (1e-15 in the code): the second vector is then used without dividing it by its norm. A chain of two sites with bonds of dimension
    one, of norm one; no singular value is discarded. The energy reported is below that of the old chain, the energy of the new chain is above it. *)
Theorem C75_small_refuted : forall (N : numeric) (W : weights) (eps : N) (wt : N -> W) (thr : W) (mn mx : Z) (forward : bool),
  le N rz eps -> eps <> rz -> le N (radd eps eps) ro -> (1 <= mn <= mx)%Z ->
  exists dsvd : dense N -> dense N * dense N * dense N,
  (forall M, (exists m n, dsh M = [m; n]) -> thin M (dsvd M) /\ real_entries (snd (fst (dsvd M)))) /\
  (forall M, (exists m n, dsh M = [m; n]) -> descending (snd (fst (dsvd M)))) /\
  exists h h' a a' He Et b b', let l := ex_env N in two_sites_hamil t_tdot t_perm h h' = Ok He /\ mps_fit (@dsh N) (fun k => k) [a; a'] 1 1 /\ mpo_fit (@dsh N) (fun k => k) [h; h'] [a; a'] [a; a'] 1 1 /\
    hermitian_chain [h; h'] l l (map (size 1) [a; a']) /\ chain_norm [a; a'] 1 1 = ro /\
    dsh a = [1; 2; 1] /\ dsh a' = [1; 1; 1] /\ residual [1; 2; 1; 1] (local_matrix [] [] h h' [] [] l l) (pair_amp a a') [0; 1; 0; 0] <> rz /\
    (forall s Et U M, merge t_tdot a a' = Ok s -> t_update eps s He l l = Ok (Et, U) -> cut_matrix 2 U M -> isometries M (dsvd M)) /\
    t_site_update eps dsvd wt thr mn mx forward a a' He l l = Some (Ok (Et, b, b')) /\ dsh b = [1; 2; 1] /\ dsh b' = [1; 1; 1] /\ chain_norm [b; b'] 1 1 = ro /\
    let old := expectation [a; a'] [a; a'] [h; h'] l l in let new := expectation [b; b'] [b; b'] [h; h'] l l in
    le N (dv Et []) old /\ dv Et [] <> old /\ le N old new /\ old <> new.
Proof. exact (fun N W eps wt thr mn mx fwd P Z O B => ex_intro _ (@ex_col N) (Logic.conj (@col_thin N) (Logic.conj (@col_val N) (@small_refuted N W eps P Z O wt thr mn mx fwd B)))). Qed.
Print Assumptions C75_small_refuted.
