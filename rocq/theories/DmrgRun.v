(** Model of a whole run of [dmrg] on dense tensors, with the numbers: sources/dmrg.cpp:101-107 (the entry point), 127-207 (sweeps and
    updates), 277-334 (the driver), 370-409 (environments). Model only. Dmrg.v has the same loops for arbitrary numerical
    functions that cannot fail. The gradient guard and the logger are not modelled. [None]: a loop of the truncation ran out of fuel. *)
From Verif Require Import Base Ring Index SpecIndex Dense BTensor Bcast Tensordot Chain Edges Num Truncate BSvd BTrunc MoveOc Eig2 Lanczos SiteUpdate Dmrg.
Set Implicit Arguments.

Section Alg.
  Variable T : Type.
  Variables left_env right_env : T -> T -> T -> result T.
  (** The numerical part of the update of two sites: direction, sites, two-site Hamiltonian, environments; energy and new sites. *)
  Variable upd2 : bool -> T -> T -> T -> T -> T -> option (result (T * T * T)).
  Variables hs hs2 : list T.
  Notation st := (dst T T).

  (** sources/dmrg.cpp:165-207 [dmrg_2sites_update::operator()] *)
  Definition update_at (s : st) (step : Z) : option (result (st * T)) :=
    let oc := d_oc s in
    let forward := (step =? 1)%Z in
    obind (Some (zget (d_sites s) oc)) (fun a =>
    obind (Some (zget (d_sites s) (oc + 1))) (fun a' =>
    obind (Some (zget hs2 oc)) (fun h =>
    obind (Some (zget (d_env s) (oc - 1 + 1))) (fun l =>
    obind (Some (zget (d_env s) (oc + 2 + 1))) (fun r =>
    obind (upd2 forward a a' h l r) (fun x =>
    let '(E, b, b') := x in
    Some (
      do s1 <- zset (d_sites s) oc b ;
      do s2 <- zset s1 (oc + 1) b' ;
      do env <- (if forward then do o <- zget hs oc ; do l' <- left_env o b l ; zset (d_env s) (oc + 1) l'
                 else do o <- zget hs (oc + 1) ; do r' <- right_env o b' r ; zset (d_env s) (oc + 1 + 1) r') ;
      Ok (mkDst s2 env (oc + step)%Z, E)))))))).
  (** sources/dmrg.cpp:127-142 [sweep], [n] turns; all the energies are kept, the code keeps the last. *)
  Fixpoint updates (n : nat) (s : st) (step right_edge : Z) : option (result (st * Z * list T)) :=
    match n with
    | 0 => Some (Ok (s, step, []))
    | S n =>
        obind (update_at s step) (fun x =>
        let '(s', E) := x in
        let step' := (step * (1 - 2 * (if (d_oc s' =? 0) || (d_oc s' =? right_edge) then 1 else 0)))%Z in
        obind (updates n s' step' right_edge) (fun y => let '(s'', step'', l) := y in Some (Ok (s'', step'', E :: l))))
    end.
  (** sources/dmrg.cpp:300-318: sweeps of [n] updates until [converged] or [k] of them are done. *)
  Variable converged : T -> T -> result bool.
  Fixpoint sweeps (k n : nat) (E0 : T) (s : st) (step right_edge : Z) : option (result (T * st)) :=
    match k with
    | 0 => Some (Ok (E0, s))
    | S k =>
        obind (updates n s step right_edge) (fun x =>
        let '(s', step', l) := x in
        let E := last l E0 in
        obind (Some (converged E0 E)) (fun c => if c then Some (Ok (E, s')) else sweeps k n E s' step' right_edge))
    end.

  (** sources/dmrg.cpp:392-409: the two loops of [generate_env_impl]. *)
  Fixpoint fill_left (k i : nat) (sites env : list T) : result (list T) :=
    match k with
    | 0 => Ok env
    | S k =>
        do h <- rnth hs i ; do a <- rnth sites i ; do e <- rnth env i ;
        do e' <- left_env h a e ; do env' <- zset env (Z.of_nat i + 1) e' ;
        fill_left k (S i) sites env'
    end.
  Fixpoint fill_right (k i : nat) (sites env : list T) : result (list T) :=
    match k with
    | 0 => Ok env
    | S k =>
        do h <- rnth hs i ; do a <- rnth sites i ; do e <- rnth env (i + 2) ;
        do e' <- right_env h a e ; do env' <- zset env (Z.of_nat i + 1) e' ;
        fill_right k (i - 1) sites env'
    end.
  (** [undef] stands for the tensors constructed by default. *)
  Variable undef : T.
  Definition gen_env (sites : list T) (oc : nat) (l r : T) : result (list T) :=
    let L := length hs in
    let env0 := upd (upd (repeat undef (L + 2)) 0 l) (L + 1) r in
    do env1 <- fill_left oc 0 sites env0 ;
    fill_right (L - 1 - oc) (L - 1) sites env1.
End Alg.

(** Where the driver starts, sources/dmrg.cpp:286-298, for a chain of [L] sites with centre [oc]: position and direction. *)
Definition start_pos (L oc : nat) : nat := if oc =? L - 1 then oc - 1 else oc.
Definition start_step (L oc : nat) : Z := if L - 1 =? 1 then 0%Z else if oc =? 0 then 1%Z else (-1)%Z.
(** Updates in one sweep, sources/dmrg.cpp:287 and 304. *)
Definition sweep_size (L : nat) : nat := 2 * (L - 1 - 1 + (if L - 1 =? 1 then 1 else 0)).

(** Dense tensors over exact real or complex numbers. [slack] as in Edges.v; [eps] stands for 1e-15, [e_init] for 100000,
    [crit] for the convergence criterion. *)
Section Torch.
  Context {N : numeric} {W : weights}.
  Variable slack : nat.
  Variables eps e_init crit : N.
  Variable dsvd : dense N -> dense N * dense N * dense N.
  Variable wt : N -> W.
  Variable thr : W.
  Variables mn mx : Z.
  Notation t := (dense N).
  Notation lstep := (compute_left_env t_tdot t_conj).
  Notation rstep := (compute_right_env t_tdot t_conj).

  Definition t_updates (hs hs2 : list t) : nat -> dst t t -> Z -> Z -> option (result (dst t t * Z * list t)) :=
    updates lstep rstep (t_site_update eps dsvd wt thr mn mx) hs hs2.
  (** sources/dmrg.cpp:311 [!((abs(E0_update - E0) > options.convergence_criterion)).item()] *)
  Definition t_converged (E E' : t) : result bool := do d <- t_zip false rsub E E' ; do x <- t_item (d_map nabs d) ; Ok (n_leb N x crit).
  (** sources/dmrg.cpp:370-391 and 392-409 *)
  Definition t_generate_env (undef : t) (hs sites : list t) (oc : nat) : result (list t) :=
    do a0 <- front sites ; do h0 <- front hs ;
    do l <- d_env_edge slack a0 h0 0 0 ;
    do a1 <- Edges.back sites ; do h1 <- Edges.back hs ;
    do r <- d_env_edge slack a1 h1 2 2 ;
    gen_env lstep rstep hs undef sites oc l r.
  (** sources/dmrg.cpp:277-334 [dmrg_impl] *)
  Definition t_dmrg_impl (max_iter : nat) (hs hs2 env sites : list t) (oc : nat) : option (result (t * list t * Z)) :=
    let L := length sites in
    obind (Some (do n <- d_contract_default slack sites sites ; t_item n)) (fun norm =>
    if reqb norm rz || negb (n_leb N eps norm) then Some (Throw InvalidArgument) else
    let init := start_pos L oc in
    obind (sweeps lstep rstep (t_site_update eps dsvd wt thr mn mx) hs hs2 t_converged max_iter (sweep_size L) (mkD [] (fun _ => e_init))
      (mkDst sites env (Z.of_nat init)) (start_step L oc) (Z.of_nat L - 2)) (fun x =>
    let '(E, s) := x in
    let p := d_oc s in
    if (negb (p =? Z.of_nat init) && (negb (p =? Z.of_nat init - 1) && negb (init =? L - 1)%nat))%Z then Some (Throw RuntimeError) else
    let p := (p + (if p =? 0 then 1 else 0))%Z in
    if (p =? Z.of_nat init)%Z then Some (Ok (E, d_sites s, p))
    else Some (do y <- mps_move dsvd (d_sites s) p (Z.of_nat init) ; Ok (E, fst y, snd y)))).
  (** sources/dmrg.cpp:101-107 [dmrg(hamiltonian, in_out_state, options, logger)]: energy, chain, reported centre. *)
  Definition t_dmrg (undef : t) (max_iter : nat) (hs sites : list t) (oc : nat) : option (result (t * list t * Z)) :=
    obind (Some (t_generate_env undef hs sites oc)) (fun env =>
    obind (Some (compute_2sites_hamil t_tdot t_perm hs)) (fun hs2 =>
    t_dmrg_impl max_iter hs hs2 env sites oc)).
End Torch.
