(** The update of a pair of sites of a chain of block tensors (C83). *)
From Verif Require Import Base Quantity QuantityProofs Ring SpecIndex Index Dense BTensor SpecBTensor Tensordot Chain SpecChain SpecMove SpecSector SpecSvd BSvd Truncate SpecTruncate BTrunc SpecBTrunc BTruncProofs MoveInst
  Num Lanczos SpecLanczos BLanczos SpecBLanczos SiteUpdate SpecSiteUpdate ChainEnergy BSiteUpdate SpecBSiteUpdate BSiteChain BTensorEx BLanczosEx LanczosEx SiteUpdateEx BSiteUpdateEx.
Local Open Scope nat_scope.

(** C83. Full claim: for every normalized chain of block tensors with isometries on both sides of a pair of sites and every Hermitian chain of
    operators that conserves the quantities, the update of the pair gives a normalized chain of block tensors with the same dimensions and
    total rule, the first new site (moving forward) or the second one (moving back) is an isometry, the new bond is within the
    limits, and the energy reported is not above that of the old chain, and is that of the new one when no singular value is discarded.
    Proved: all of it with these restrictions. The blocks that one application of the operators reaches are stored in the pair ([reached], see C72);
    the residual of the pair is at least [eps] or the pair is an eigenvector with negative eigenvalue ([improvable], see C75);
    the isometry holds on the values of the bond that the other site uses, on all of them when nothing is discarded and no sector is zero;
    the upper limit on the bond is not claimed (C40_blocks_refuted); where several blocks share a section of the new
    bond, the truncated factors have to be as C40 needs them ([tidy]). [torch::svd] is the argument [dsvd], its values the arguments [gtb], [lower], [wt]. *)
Theorem C83_update_partial : forall (G : abgroup) (N : numeric) (W : weights) (imax : nat) (eps : N) (gtb : N -> N -> bool) (lower : N -> N) (wt : N -> W)
    (dsvd : dense N -> dense N * dense N * dense N) (thr : W) (mn mx : Z),
  le N rz eps -> eps <> rz -> total_order gtb -> (forall x, gtb x rz = true -> gtb x (lower x) = true) -> lower rz = rz -> (1 <= mn <= mx)%Z ->
  (forall M, (exists m n, dsh M = [m; n]) -> thin M (dsvd M) /\ real_entries (snd (fst (dsvd M))) /\
    SpecBTrunc.descending gtb (entries (snd (fst (dsvd M)))) /\ forall x, In x (entries (snd (fst (dsvd M)))) -> gtb rz x = false) ->
  forall (forward : bool) (pre : list (btensor G N)) (a a' : btensor G N) (post hpre : list (btensor G N)) (h h' : btensor G N) (hpost : list (btensor G N)) (l e L H E s P : btensor G N)
    (Dpre : list (dense N)) (Da Da' : dense N) (Dpost Dhpre : list (dense N)) (Dh Dh' : dense N) (Dhpost : list (dense N)) (Dl De : dense N)
    (x0 o0 x1 o1 x p k p' x' : list nat * list G),
  Forall2 (stored imax) pre Dpre -> stored imax a Da -> stored imax a' Da' -> Forall2 (stored imax) post Dpost ->
  Forall2 (stored imax) hpre Dhpre -> stored imax h Dh -> stored imax h' Dh' -> Forall2 (stored imax) hpost Dhpost -> stored imax l Dl -> stored imax e De ->
  blegs l = [x0; o0; bdual G x0] -> blegs e = [bdual G x1; bdual G o1; x1] -> length hpre = length pre ->
  mps_fit (@blegs G N) (bdual G) (pre ++ [a; a'] ++ post) x0 x1 ->
  mpo_fit (@blegs G N) (bdual G) (hpre ++ [h; h'] ++ hpost) (pre ++ [a; a'] ++ post) (pre ++ [a; a'] ++ post) o0 o1 ->
  blegs a = [bdual G x; p; k] -> blegs a' = [bdual G k; p'; x'] ->
  left_envs (tensordot imax) (@conj G N) hpre pre l = Ok L -> right_envs (tensordot imax) (@conj G N) hpost post e = Ok E -> two_sites_hamil (tensordot imax) (@b_perm G N) h h' = Ok H ->
  conserving L H E -> merge (tensordot imax) a a' = Ok s -> hamil2site_times_state (tensordot imax) s H L E = Ok P -> reached P s ->
  length (fst x) * length (fst p) <= imax -> (Z.of_nat (bsz G p' * bsz G x') <= 2 ^ 63)%Z ->
  Forall left_isometry Dpre -> Forall right_isometry Dpost -> hermitian_chain (Dhpre ++ [Dh; Dh'] ++ Dhpost) Dl De (map (size 1) (Dpre ++ [Da; Da'] ++ Dpost)) ->
  chain_norm (Dpre ++ [Da; Da'] ++ Dpost) (bsz G x0) (bsz G x1) = ro ->
  improvable [bsz G x; bsz G p; bsz G p'; bsz G x'] (local_matrix Dpre Dhpre Dh Dh' Dpost Dhpost Dl De) eps (pair_amp Da Da') ->
  (forall Et U DU M, b_update imax eps s H L E = Ok (Et, U) -> stored imax U DU -> blegs U = [bdual G x; p; p'; x'] -> sector_matrix 2 U DU M -> isometries M (dsvd M)) ->
  (forall Et U DU u v w z, b_update imax eps s H L E = Ok (Et, U) -> stored imax U DU -> blegs U = [bdual G x; p; p'; x'] ->
    sprod [bsz G x; bsz G p; bsz G p'; bsz G x'] (dv DU) (dv DU) = ro -> svd_split dsvd U 2 = Ok (u, v, w) -> tidy gtb v z u /\ tidy gtb v z w) ->
  exists Et b b' k' DEt Db Db', b_site_update imax eps gtb lower wt dsvd thr mn mx forward a a' H L E = Some (Ok (Et, b, b')) /\
    (stored imax Et DEt /\ stored imax b Db /\ stored imax b' Db') /\ (blegs Et = [] /\ blegs b = [bdual G x; p; k'] /\ blegs b' = [bdual G k'; p'; x']) /\
    mps_fit (@blegs G N) (bdual G) (pre ++ [b; b'] ++ post) x0 x1 /\ (b_rule b = qop G (b_rule a) (b_rule a') /\ b_rule b' = qe G) /\
    1 <= bsz G k' <= Nat.min (bsz G x * bsz G p) (bsz G p' * bsz G x') /\
    chain_norm (Dpre ++ [Db; Db'] ++ Dpost) (bsz G x0) (bsz G x1) = ro /\
    (if forward then left_isometry_used Db Db' else right_isometry_used Db Db') /\
    le N (dv DEt []) (expectation (Dpre ++ [Da; Da'] ++ Dpost) (Dpre ++ [Da; Da'] ++ Dpost) (Dhpre ++ [Dh; Dh'] ++ Dhpost) Dl De) /\
    ((forall v, wgtb (total wt v) thr = true <-> exists y, In y v /\ y <> rz) -> (Z.of_nat (bsz G p' * bsz G x') <= mx)%Z ->
      expectation (Dpre ++ [Db; Db'] ++ Dpost) (Dpre ++ [Db; Db'] ++ Dpost) (Dhpre ++ [Dh; Dh'] ++ Dhpost) Dl De = dv DEt [] /\
      ((forall Et U DU z, b_update imax eps s H L E = Ok (Et, U) -> stored imax U DU -> blegs U = [bdual G x; p; p'; x'] -> sprod [bsz G x; bsz G p; bsz G p'; bsz G x'] (dv DU) (dv DU) = ro -> In z (b_blocks U) ->
          exists z' j, In z' (b_blocks U) /\ block_quantity 2 U (fst z') = block_quantity 2 U (fst z) /\ in_range (dsh (snd z')) j = true /\ dv (snd z') j <> rz) ->
        if forward then left_isometry Db else right_isometry Db')).
Proof. exact (fun G N W imax eps gtb lower wt dsvd thr mn mx P Z O L0 L1 B T => @bchain_ok G N W imax eps gtb lower wt dsvd thr mn mx P Z O L0 L1 B T). Qed.
Print Assumptions C83_update_partial.

(** Two spins, one up and one down, with exchange: no singular value is discarded. *)
Example C83_ex : forall (N : numeric) (eps : N) (forward : bool), (forall x : N, rconj x = x) -> le N rz eps -> eps <> rz -> le N (rmul eps eps) (rmul (two N) (two N)) ->
  exists H Et b b' DEt Db Db', two_sites_hamil (tensordot 100) (@b_perm z_group N) (xh1 N) (xh2 N) = Ok H /\
    b_site_update 100 eps (n_gtb N) (half N) (count N) (ex_svd1 N) (0%N : w_N) 1 10 forward (xa N) (xb N) H (xe N) (xe N) = Some (Ok (Et, b, b')) /\
    stored 100 Et DEt /\ stored 100 b Db /\ stored 100 b' Db' /\ chain_norm [Db; Db'] 1 1 = ro /\
    (if forward then left_isometry_used Db Db' else right_isometry_used Db Db') /\
    expectation [Db; Db'] [Db; Db'] [dh1 N; dh2 N] (ex_env N) (ex_env N) = dv DEt [] /\
    le N (dv DEt []) (expectation [da N; db N] [da N; db N] [dh1 N; dh2 N] (ex_env N) (ex_env N)).
Proof.
  intros N eps fwd RE P Z O. destruct (computed N) as (s & H & Pt & ES & EH & EP & CV & RC). exists H.
  destruct (@C83_update_partial z_group N w_N 100 eps (n_gtb N) (half N) (count N) (ex_svd1 N) 0%N 1 10 P Z (@gtb_order N RE) (half_lower N) (half_0 N) ltac:(lia) (@svd1_gtb N RE) fwd
    [] (xa N) (xb N) [] [] (xh1 N) (xh2 N) [] (xe N) (xe N) (xe N) H (xe N) s Pt [] (da N) (db N) [] [] (dh1 N) (dh2 N) [] (ex_env N) (ex_env N)
    bond bond bond bond bond spin down spin bond) as (Et & b & b' & k' & DEt & Db & Db' & E1 & (D1 & D2 & D3) & _ & _ & _ & _ & E5 & E6 & E7 & E8);
    try reflexivity; try (constructor; fail); try exact EH; try exact ES; try exact EP; try exact CV; try exact RC.
  - apply den_xa.
  - apply den_xb.
  - apply den_xh1.
  - apply den_xh2.
  - apply den_xe.
  - apply den_xe.
  - apply tl_e.
  - apply tl_e'.
  - apply x_fit.
  - apply x_ofit.
  - apply tl_a.
  - apply tl_b.
  - cbn. lia.
  - cbn. lia.
  - apply x_hermitian.
  - apply x_norm.
  - apply x_improvable, O.
  - intros Et U DU M _ _ TU HM. destruct (@small_sector N U DU M TU HM) as (m & n & SM & Hm & Hn). apply (@svd1_small N M m n SM Hm Hn).
  - intros Et U DU u v w z _ HU TU NU. apply (@x_tidy N RE U u v w DU z HU TU NU).
  - exists Et, b, b', DEt, Db, Db'. do 7 (split; [assumption|]). destruct E8 as (E8 & _); [intros v; apply (@count_exact N RE)|cbn; lia|]. split; [exact E8|exact E7].
Qed.
