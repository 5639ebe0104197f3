(** Model of a whole run of [dmrg] on block tensors, with the numbers: sources/dmrg.cpp:92-100 (the entry point), 127-207 (sweeps and
    updates), 219-273 (the driver), 370-409 (environments). Model only; the loops are those of DmrgRun.v. The gradient guard and the logger
    are not modelled. [None]: a loop of the truncation ran out of fuel. *)
From Verif Require Import Base Quantity Ring Index SpecIndex Dense BTensor BTensorArith Bcast Tensordot Chain Edges Num Truncate BSvd BTrunc MoveOc Eig2 Lanczos BLanczos SiteUpdate BSiteUpdate Dmrg DmrgRun.
Set Implicit Arguments.

Section Blocks.
  Context {G : abgroup} {N : numeric} {W : weights}.
  (** [last_first] as in Edges.v: the order in which the arguments of [shape_from] are evaluated. *)
  Variable last_first : bool.
  Variable imax : nat.
  (** [eps] stands for 1e-15, [e_init] for 100000, [crit] for the convergence criterion. *)
  Variables eps e_init crit : N.
  Variable gtb : N -> N -> bool.
  Variable lower : N -> N.
  Variable wt : N -> W.
  Variable dsvd : dense N -> dense N * dense N * dense N.
  Variable thr : W.
  Variables mn mx : Z.
  Notation bt := (btensor G N).
  Notation lstep := (compute_left_env (tensordot imax) (@conj G N)).
  Notation rstep := (compute_right_env (tensordot imax) (@conj G N)).
  Notation upd2 := (b_site_update imax eps gtb lower wt dsvd thr mn mx).

  Definition b_updates (hs hs2 : list bt) : nat -> dst bt bt -> Z -> Z -> option (result (dst bt bt * Z * list bt)) := updates lstep rstep upd2 hs hs2.
  Definition f_abs (x : flt N) : flt N := match x with Fin x => Fin (nabs x) | _ => x end.
  Definition f_gtb (x : flt N) (y : N) : bool := match x with Fin x => negb (n_leb N x y) | Inf => true | Nan => false end.
  (** sources/dmrg.cpp:247-248, [E] the energy of the sweep before and [E'] that of this one:
      [!((((E0 - E0_tens) / E0).abs() > options.convergence_criterion)).item().toBool()]. Without a block the element read is zero. *)
  Definition b_converged (E E' : bt) : result bool :=
    do x <- x_of E ; do y <- x_of E' ; do d <- minus y x ;
    Ok (negb (match snd (x_zip f_div d y) with Some u => f_gtb (f_abs u) crit | None => false end)).
  (** sources/dmrg.cpp:370-391 and 392-409 *)
  Definition b_generate_env (undef : bt) (hs sites : list bt) (oc : nat) : result (list bt) :=
    do a0 <- front sites ; do h0 <- front hs ;
    do l <- b_env_edge last_first a0 h0 0 0 ;
    do a1 <- Edges.back sites ; do h1 <- Edges.back hs ;
    do r <- b_env_edge last_first a1 h1 2 2 ;
    gen_env lstep rstep hs undef sites oc l r.
  (** sources/dmrg.cpp:222 [full({}, neutral, 100000.0)] *)
  Definition b_e0 : bt := @mkB G N (qe G) 0 [] [] [] [([], mkD [] (fun _ => e_init))].
  (** sources/dmrg.cpp:219-273 [dmrg_impl] *)
  Definition b_dmrg_impl (max_iter : nat) (hs hs2 env sites : list bt) (oc : nat) : option (result (bt * list bt * Z)) :=
    let L := length sites in
    let init := start_pos L oc in
    obind (sweeps lstep rstep upd2 hs hs2 b_converged max_iter (sweep_size L) b_e0 (mkDst sites env (Z.of_nat init)) (start_step L oc) (Z.of_nat L - 2)) (fun x =>
    let '(E, s) := x in
    let p := d_oc s in
    if (p =? Z.of_nat init)%Z then Some (Ok (E, d_sites s, p))
    else if (negb (p =? Z.of_nat init - 1)%Z && negb (init =? L - 1)%nat) then Some (Throw RuntimeError)
    else Some (do y <- bmps_move imax dsvd (d_sites s) p (Z.of_nat init) ; Ok (E, fst y, snd y))).
  (** sources/dmrg.cpp:92-100 [dmrg(hamiltonian, in_out_state, options, logger)]: energy, chain, reported centre. *)
  Definition b_dmrg (undef : bt) (max_iter : nat) (hs sites : list bt) (oc : nat) : option (result (bt * list bt * Z)) :=
    obind (Some (b_generate_env undef hs sites oc)) (fun env =>
    obind (Some (compute_2sites_hamil (tensordot imax) b_perm hs)) (fun hs2 =>
    b_dmrg_impl max_iter hs hs2 env sites oc)).
End Blocks.
