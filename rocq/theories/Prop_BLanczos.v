(** The update of two sites of block tensors (C79). *)
From Verif Require Import Base Quantity QuantityProofs Ring SpecIndex Dense BTensor SpecBTensor Tensordot Chain SpecChain Num Lanczos SpecLanczos LanczosEx BLanczos SpecBLanczos BLanczosEx BLanczosMain BTensorEx.

(** C79. Full claim: for block tensors that conserve quantities, [two_sites_update] returns the block form of what it returns for the dense forms of its arguments, hence
    (C74) a normalized state of lowest energy among the combinations of the state and the Hamiltonian applied to it. Proved when the blocks of the Hamiltonian applied to
    the state [reach] the state: they have a block in common, and none of them comes before the first block of the state. Otherwise the claim is false in three ways. *)
Theorem C79_follows_partial : forall (G : abgroup) (N : numeric) imax (L H E s P : btensor G N) (DL DH DE Ds : dense N) (eps : N),
  stored imax L DL -> stored imax H DH -> stored imax E DE -> stored imax s Ds -> bfits L H E s -> conserving L H E ->
  hamil2site_times_state (tensordot imax) s H L E = Ok P -> reached P s ->
  same_outcome (fun r r' => stored imax (fst r) (fst r') /\ stored imax (snd r) (snd r') /\ blegs (fst r) = [] /\ blegs (snd r) = blegs s /\ b_rule (snd r) = b_rule s)
    (b_update imax eps s H L E) (t_update eps Ds DH DL DE).
Proof. exact (@follows). Qed.
Print Assumptions C79_follows_partial.
(** The lowest energy, when the norm of the residual is at least the threshold. *)
Theorem C79_ground_partial : forall (G : abgroup) (N : numeric) imax (L H E s P : btensor G N) (DL DH DE Ds : dense N) (eps : N),
  stored imax L DL -> stored imax H DH -> stored imax E DE -> stored imax s Ds -> bfits L H E s -> conserving L H E ->
  hamil2site_times_state (tensordot imax) s H L E = Ok P -> reached P s ->
  hermitian_kernel (dsh Ds) (heff DL DH DE) -> sprod (dsh Ds) (dv Ds) (dv Ds) = ro -> le N rz eps -> eps <> rz ->
  le N (rmul eps eps) (sprod (dsh Ds) (residual (dsh Ds) (heff DL DH DE) (dv Ds)) (residual (dsh Ds) (heff DL DH DE) (dv Ds))) ->
  exists Et U DEt DU, b_update imax eps s H L E = Ok (Et, U) /\ stored imax Et DEt /\ stored imax U DU /\ blegs Et = [] /\ blegs U = blegs s /\ b_rule U = b_rule s /\
    krylov_ground (dsh Ds) (heff DL DH DE) (dv Ds) (dv DEt []) (dv DU) /\ le N (dv DEt []) (energy (dsh Ds) (heff DL DH DE) (dv Ds)).
Proof. exact (@ground). Qed.
Print Assumptions C79_ground_partial.
(** Eigenvectors: those of negative energy are kept, the others give the zero tensor (as in C74). *)
Theorem C79_eigenstate_partial : forall (G : abgroup) (N : numeric) imax (L H E s P : btensor G N) (DL DH DE Ds : dense N) (eps : N),
  stored imax L DL -> stored imax H DH -> stored imax E DE -> stored imax s Ds -> bfits L H E s -> conserving L H E ->
  hamil2site_times_state (tensordot imax) s H L E = Ok P -> forall lam, reached P s ->
  hermitian_kernel (dsh Ds) (heff DL DH DE) -> sprod (dsh Ds) (dv Ds) (dv Ds) = ro -> le N rz eps -> eps <> rz ->
  (forall i, in_range (dsh Ds) i = true -> apply (dsh Ds) (heff DL DH DE) (dv Ds) i = rmul lam (dv Ds i)) ->
  exists Et U DEt DU, b_update imax eps s H L E = Ok (Et, U) /\ stored imax Et DEt /\ stored imax U DU /\ blegs Et = [] /\ blegs U = blegs s /\ b_rule U = b_rule s /\
    if n_leb N rz lam then dv DEt [] = rz /\ forall i, in_range (dsh Ds) i = true -> dv DU i = rz
    else dv DEt [] = lam /\ forall i, in_range (dsh Ds) i = true -> dv DU i = dv Ds i.
Proof. exact (@eigen). Qed.
Print Assumptions C79_eigenstate_partial.

(** A block of the Hamiltonian applied to the state before the first block of the state: its sign is changed by the subtraction. Two spins with exchange, of
    energy -1: the energy reported is -3, and that of the state returned is 1, above the first. *)
Theorem C79_sign_refuted : forall (N : numeric) (eps : N), le N rz eps -> le N eps (two N) ->
  exists (L H E s : btensor z_group N) (DL DH DE Ds : dense N), stored 100 L DL /\ stored 100 H DH /\ stored 100 E DE /\ stored 100 s Ds /\ bfits L H E s /\ conserving L H E /\
    hermitian_kernel (dsh Ds) (heff DL DH DE) /\ sprod (dsh Ds) (dv Ds) (dv Ds) = ro /\ energy (dsh Ds) (heff DL DH DE) (dv Ds) = ropp ro /\
    exists Et U DEt DU, b_update 100 eps s H L E = Ok (Et, U) /\ stored 100 Et DEt /\ stored 100 U DU /\
      dv DEt [] = ropp (radd ro (two N)) /\ sprod (dsh Ds) (dv DU) (dv DU) = ro /\ energy (dsh Ds) (heff DL DH DE) (dv DU) = ro.
Proof.
  intros N eps P0 P2. exists (xe N), (xh N), (xe N), (xs N 1), (ex_env N), (dh N), (ex_env N), (ds N 1). split; [apply den_xe|]. split; [apply den_xh|]. split; [apply den_xe|].
  split; [apply den_xs; auto|]. split; [apply xs_fits|]. split; [apply x_conserving|]. split; [apply h_hermitian|]. split; [apply (s_norm N); auto|]. split; [apply (s_energy N); auto|]. exact (triplet P0 P2).
Qed.
Print Assumptions C79_sign_refuted.
(** The Hamiltonian moves every block of the state elsewhere, and does so again: the two energies are tensors without blocks. The energy reported is minus the norm of
    the Hamiltonian applied to the state, the state returned is that vector up to a factor, its energy is zero. *)
Theorem C79_hopping_refuted : forall (G : abgroup) (N : numeric) imax (L H E s P : btensor G N) (DL DH DE Ds : dense N) (eps : N),
  stored imax L DL -> stored imax H DH -> stored imax E DE -> stored imax s Ds -> bfits L H E s -> conserving L H E ->
  hamil2site_times_state (tensordot imax) s H L E = Ok P -> forall Q, hamil2site_times_state (tensordot imax) P H L E = Ok Q ->
  (forall k, ~ (has P k /\ has s k)) -> (forall k, ~ (has Q k /\ has P k)) -> le N rz eps -> eps <> rz ->
  le N (rmul eps eps) (sprod (dsh Ds) (apply (dsh Ds) (heff DL DH DE) (dv Ds)) (apply (dsh Ds) (heff DL DH DE) (dv Ds))) ->
  exists Et U DEt DU, b_update imax eps s H L E = Ok (Et, U) /\ stored imax Et DEt /\ stored imax U DU /\
    dv DEt [] = ropp (n_sqrt N (sprod (dsh Ds) (apply (dsh Ds) (heff DL DH DE) (dv Ds)) (apply (dsh Ds) (heff DL DH DE) (dv Ds)))) /\
    (forall i, in_range (dsh Ds) i = true -> dv DU i =
      ropp (ndiv N (apply (dsh Ds) (heff DL DH DE) (dv Ds) i) (n_sqrt N (sprod (dsh Ds) (apply (dsh Ds) (heff DL DH DE) (dv Ds)) (apply (dsh Ds) (heff DL DH DE) (dv Ds)))))) /\
    energy (dsh Ds) (heff DL DH DE) (dv DU) = rz.
Proof. exact (@hopping). Qed.
Print Assumptions C79_hopping_refuted.
(** The Hamiltonian applied to the state has no block: an exception, for a state that is an eigenvector of energy zero. *)
Theorem C79_nothing_refuted : forall (G : abgroup) (N : numeric) imax (L H E s P : btensor G N) (DL DH DE Ds : dense N) (eps : N),
  stored imax L DL -> stored imax H DH -> stored imax E DE -> stored imax s Ds -> bfits L H E s -> conserving L H E ->
  hamil2site_times_state (tensordot imax) s H L E = Ok P -> (forall k, ~ has P k) -> b_update imax eps s H L E = Throw TorchError.
Proof. exact (@nothing). Qed.
Print Assumptions C79_nothing_refuted.

(** Two spins with exchange, the second down: the state of lowest energy is found. *)
Example C79_ex : forall (N : numeric) (eps : N), le N rz eps -> eps <> rz -> le N (rmul eps eps) (rmul (two N) (two N)) ->
  exists Et U DEt DU, b_update 100 eps (xs N 0) (xh N) (xe N) (xe N) = Ok (Et, U) /\ stored 100 Et DEt /\ stored 100 U DU /\
    krylov_ground [1; 2; 2; 1] (heff (ex_env N) (dh N) (ex_env N)) (dv (ds N 0)) (dv DEt []) (dv DU).
Proof.
  intros N eps P0 Pz P2. destruct (x_h2s N (a := 0)) as (P & _ & EP & _); [auto|].
  destruct (C79_ground_partial z_group N 100 (xe N) (xh N) (xe N) (xs N 0) P (ex_env N) (dh N) (ex_env N) (ds N 0) eps) as (Et & U & DEt & DU & E1 & E2 & E3 & _ & _ & _ & K & _).
  - apply den_xe.
  - apply den_xh.
  - apply den_xe.
  - apply den_xs. auto.
  - apply xs_fits.
  - apply x_conserving.
  - exact EP.
  - apply x_reached, EP.
  - apply h_hermitian.
  - apply (s_norm N). auto.
  - exact P0.
  - exact Pz.
  - cbn [ds dsh]. rewrite (h_residual_norm N). exact P2.
  - exists Et, U, DEt, DU. auto.
Qed.
(** Exchange alone: the lowest energy is -1, reported with a state of energy 0. *)
Example C79_hopping_ex : forall (N : numeric) (eps : N), le N rz eps -> eps <> rz -> le N (rmul eps eps) ro ->
  exists Et U DEt DU, b_update 100 eps (xs N 0) (xk N) (xe N) (xe N) = Ok (Et, U) /\ stored 100 Et DEt /\ stored 100 U DU /\
    dv DEt [] = ropp ro /\ sprod [1; 2; 2; 1] (dv DU) (dv DU) = ro /\ energy [1; 2; 2; 1] (heff (ex_env N) (dk N) (ex_env N)) (dv DU) = rz.
Proof. exact xk_update. Qed.
Example C79_nothing_ex : forall (N : numeric) (eps : N), stored 100 (xn N) (dn N) /\ hermitian_kernel [1; 2; 2; 1] (heff (ex_env N) (dn N) (ex_env N)) /\
  sprod [1; 2; 2; 1] (dv (ds N 0)) (dv (ds N 0)) = ro /\ b_update 100 eps (xs N 0) (xn N) (xe N) (xe N) = Throw TorchError.
Proof. intros N eps. split; [apply den_xn|]. split; [apply n_hermitian|]. split; [apply (s_norm N); auto|apply xn_update]. Qed.
