(** The update of two sites (C74). *)
From Verif Require Import Base Ring SpecIndex Dense BTensor Num Lanczos SpecLanczos LanczosProofs LanczosEx LanczosExact.

(** C74. Full claim: for every normalized state and Hermitian effective Hamiltonian, [two_sites_update] returns a normalized state, its
    energy, and this is the lowest energy among the combinations of the state and the Hamiltonian applied to it. Proved when the norm of the residual
    is at least the threshold [eps] (1e-15 in the code), and when it is zero (an eigenvector) and the energy is negative. For an
    eigenvector whose energy is not negative the claim is false: the zero tensor is returned, with energy zero. For residuals smaller than the threshold but not zero it is false, too: the second direction is then not normalized.
    [C74_exact] says for which states the claim holds. *)
Theorem C74_update_partial : forall (N : numeric) (L H E : dense N) x p p' x' (eps : N) (s : dense N),
  fits L H E x p p' x' -> dsh s = [x; p; p'; x'] -> hermitian_kernel [x; p; p'; x'] (heff L H E) -> sprod [x; p; p'; x'] (dv s) (dv s) = ro ->
  le N rz eps -> eps <> rz ->
  le N (rmul eps eps) (sprod [x; p; p'; x'] (residual [x; p; p'; x'] (heff L H E) (dv s)) (residual [x; p; p'; x'] (heff L H E) (dv s))) ->
  exists Et U, t_update eps s H L E = Ok (Et, U) /\ dsh Et = [] /\ dsh U = [x; p; p'; x'] /\
    krylov_ground [x; p; p'; x'] (heff L H E) (dv s) (dv Et []) (dv U) /\ le N (dv Et []) (energy [x; p; p'; x'] (heff L H E) (dv s)).
Proof. exact (fun N L H E x p p' x' eps s F S HM Nv P Z => @update_ok N L H E x p p' x' F eps s S HM Nv P Z). Qed.
Print Assumptions C74_update_partial.
(** An eigenvector of negative energy is returned unchanged, with its energy. *)
Theorem C74_eigenstate_partial : forall (N : numeric) (L H E : dense N) x p p' x' (eps : N) (s : dense N) lam,
  fits L H E x p p' x' -> dsh s = [x; p; p'; x'] -> hermitian_kernel [x; p; p'; x'] (heff L H E) -> sprod [x; p; p'; x'] (dv s) (dv s) = ro ->
  le N rz eps -> eps <> rz -> (forall i, in_range [x; p; p'; x'] i = true -> apply [x; p; p'; x'] (heff L H E) (dv s) i = rmul lam (dv s i)) ->
  exists Et U, t_update eps s H L E = Ok (Et, U) /\ dsh Et = [] /\ dsh U = [x; p; p'; x'] /\
    if n_leb N rz lam then dv Et [] = rz /\ forall i, in_range [x; p; p'; x'] i = true -> dv U i = rz
    else dv Et [] = lam /\ forall i, in_range [x; p; p'; x'] i = true -> dv U i = dv s i.
Proof. exact (fun N L H E x p p' x' eps s lam F S HM Nv P Z => @update_eigen N L H E x p p' x' F eps s S HM Nv P Z lam). Qed.
Print Assumptions C74_eigenstate_partial.
(** The state returned for an eigenvector of energy one is zero. *)
Theorem C74_eigenstate_refuted : forall (N : numeric) (eps : N), le N rz eps -> eps <> rz ->
  exists L H E s : dense N, fits L H E 1 1 1 1 /\ dsh s = [1; 1; 1; 1] /\ hermitian_kernel [1; 1; 1; 1] (heff L H E) /\ sprod [1; 1; 1; 1] (dv s) (dv s) = ro /\
    energy [1; 1; 1; 1] (heff L H E) (dv s) = ro /\
    exists Et U, t_update eps s H L E = Ok (Et, U) /\ dv Et [] = rz /\ sprod [1; 1; 1; 1] (dv U) (dv U) = rz.
Proof. exact update_zero. Qed.
Print Assumptions C74_eigenstate_refuted.

(** The claim holds exactly of the states whose residual is at least the threshold and of the eigenvectors of negative energy. *)
Theorem C74_exact : forall (N : numeric) (L H E : dense N) x p p' x' (eps : N) (s : dense N),
  fits L H E x p p' x' -> dsh s = [x; p; p'; x'] -> hermitian_kernel [x; p; p'; x'] (heff L H E) -> sprod [x; p; p'; x'] (dv s) (dv s) = ro ->
  le N rz eps -> eps <> rz -> le N (rmul eps eps) ro ->
  exists Et U, t_update eps s H L E = Ok (Et, U) /\ dsh Et = [] /\ dsh U = [x; p; p'; x'] /\
    (krylov_ground [x; p; p'; x'] (heff L H E) (dv s) (dv Et []) (dv U) <->
     le N (rmul eps eps) (sprod [x; p; p'; x'] (residual [x; p; p'; x'] (heff L H E) (dv s)) (residual [x; p; p'; x'] (heff L H E) (dv s))) \/
     sprod [x; p; p'; x'] (residual [x; p; p'; x'] (heff L H E) (dv s)) (residual [x; p; p'; x'] (heff L H E) (dv s)) = rz /\ ~ le N rz (energy [x; p; p'; x'] (heff L H E) (dv s))).
Proof. exact (fun N L H E x p p' x' eps s F S HM Nv P Z => @update_exact N L H E x p p' x' F eps s S HM Nv P Z). Qed.
Print Assumptions C74_exact.
(** A residual that is not zero and smaller than the threshold (one spin flipped with a coupling of half the threshold): the state returned is not normalized. *)
Theorem C74_small_refuted : forall (N : numeric) (eps : N), le N rz eps -> eps <> rz -> le N (rmul eps eps) ro ->
  exists L H E s : dense N, fits L H E 1 2 2 1 /\ dsh s = [1; 2; 2; 1] /\ hermitian_kernel [1; 2; 2; 1] (heff L H E) /\ sprod [1; 2; 2; 1] (dv s) (dv s) = ro /\
    sprod [1; 2; 2; 1] (residual [1; 2; 2; 1] (heff L H E) (dv s)) (residual [1; 2; 2; 1] (heff L H E) (dv s)) <> rz /\
    exists Et U, t_update eps s H L E = Ok (Et, U) /\ sprod [1; 2; 2; 1] (dv U) (dv U) <> ro.
Proof. exact small_refuted. Qed.
Print Assumptions C74_small_refuted.

(** The first spin of two is flipped; the state with both up has a residual of norm one. *)
Example C74_ex : forall (N : numeric) (eps : N), le N rz eps -> eps <> rz -> le N (rmul eps eps) ro ->
  exists Et U, t_update eps (ex_up N) (ex_flip N) (ex_env N) (ex_env N) = Ok (Et, U) /\
    krylov_ground [1; 2; 2; 1] (heff (ex_env N) (ex_flip N) (ex_env N)) (dv (ex_up N)) (dv Et []) (dv U).
Proof.
  intros N eps P Z O. destruct (C74_update_partial N (ex_env N) (ex_flip N) (ex_env N) 1 2 2 1 eps (ex_up N)) as (Et & U & EU & _ & _ & K & _).
  - exists 1, 1. repeat split.
  - reflexivity.
  - apply flip_hermitian.
  - apply up_norm.
  - exact P.
  - exact Z.
  - rewrite up_residual. exact O.
  - exists Et, U. auto.
Qed.
Example C74_ex_eigenstate : forall (N : numeric) (eps : N), le N rz eps -> eps <> rz ->
  exists Et U, t_update eps (ex_one N) (ex_num N (ropp ro)) (ex_env N) (ex_env N) = Ok (Et, U) /\ dv Et [] = ropp ro /\ dv U [0; 0; 0; 0] = ro.
Proof. exact update_minus. Qed.
