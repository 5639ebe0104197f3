(** Model of the two-site DMRG driver: positions, environments, directions and the order of the site updates.

    The numerical content of an update (two_sites_update, svd, normalisation) is an arbitrary function [bond_update] of the
    two sites and the two environments it reads; the environments are built by arbitrary functions [lenv], [renv] of the
    position (that is of the MPO tensor there), the site and the neighbouring environment. Exceptions thrown inside those
    numerical functions are not modelled, nor is logging. *)
From Verif Require Import Base BTensor.
Set Implicit Arguments.

Section M.
  Variables S E : Type.
  Variable lenv : nat -> S -> E -> E.
  Variable renv : nat -> S -> E -> E.
  (** new sites [oc] and [oc+1]; the boolean is [step == 1] *)
  Variable bond_update : bool -> nat -> S -> S -> E -> E -> S * S.

  (** The chain, the environment vector (position [i] is stored at [i+1], sources/dmrg.cpp:40) and the centre label.
      [oc] is a [size_t]; the only arithmetic on it is [+= step], and a wrapped value is out of range for every access. *)
  Record dst := mkDst { d_sites : list S; d_env : list E; d_oc : Z }.

  Definition zget {A} (l : list A) (i : Z) : result A := if (i <? 0)%Z then UB else rnth l (Z.to_nat i).
  Definition zset {A} (l : list A) (i : Z) (a : A) : result (list A) :=
    if ((0 <=? i) && (i <? Z.of_nat (length l)))%Z then Ok (upd l (Z.to_nat i) a) else UB.

  (** One call of the updater: position, direction, chain before the call, environments read. *)
  Record call := mkCall { c_oc : Z; c_fwd : bool; c_sites : list S; c_left : E; c_right : E }.

  (** sources/dmrg.cpp:165-207 [dmrg_2sites_update::operator()] *)
  Definition dmrg_update (st : dst) (step : Z) : result (dst * call) :=
    let oc := d_oc st in
    let fwd := (step =? 1)%Z in
    do a <- zget (d_sites st) oc ;
    do b <- zget (d_sites st) (oc + 1) ;
    do le <- zget (d_env st) (oc - 1 + 1) ;
    do re <- zget (d_env st) (oc + 2 + 1) ;
    let '(a', b') := bond_update fwd (Z.to_nat oc) a b le re in
    do s1 <- zset (d_sites st) oc a' ;
    do s2 <- zset s1 (oc + 1) b' ;
    do env' <- (if fwd then zset (d_env st) (oc + 1) (lenv (Z.to_nat oc) a' le)
                else zset (d_env st) (oc + 1 + 1) (renv (Z.to_nat (oc + 1)) b' re)) ;
    Ok (mkDst s2 env' (oc + step)%Z, mkCall oc fwd (d_sites st) le re).

  (** sources/dmrg.cpp:127-142 [sweep]; [left_edge] is 0 *)
  Fixpoint sweep (n : nat) (st : dst) (step right_edge : Z) : result (dst * Z * list call) :=
    match n with
    | 0 => Ok (st, step, [])
    | Datatypes.S n =>
        do (st', c) <- dmrg_update st step ;
        let step' := (step * (1 - 2 * (if (d_oc st' =? 0) || (d_oc st' =? right_edge) then 1 else 0)))%Z in
        do (st'', step'', l) <- sweep n st' step' right_edge ;
        Ok (st'', step'', c :: l)
    end.

  (** sources/dmrg.cpp:370-409 [generate_env_impl] (as a value; the vector is filled in from both ends). [None] entries of the
      vector are default constructed tensors, here [dflt]. *)
  Variable dflt : E.
  Fixpoint left_fill (k : nat) (i : nat) (sites : list S) (env : list E) : result (list E) :=
    match k with
    | 0 => Ok env
    | Datatypes.S k =>
        do s <- rnth sites i ;
        do e <- rnth env i ;
        do env' <- zset env (Z.of_nat i + 1) (lenv i s e) ;
        left_fill k (Datatypes.S i) sites env'
    end.
  Fixpoint right_fill (k : nat) (i : nat) (sites : list S) (env : list E) : result (list E) :=
    match k with
    | 0 => Ok env
    | Datatypes.S k =>
        do s <- rnth sites i ;
        do e <- rnth env (i + 2) ;
        do env' <- zset env (Z.of_nat i + 1) (renv i s e) ;
        right_fill k (i - 1) sites env'
    end.
  Definition generate_env (sites : list S) (oc : nat) (ledge redge : E) : result (list E) :=
    let L := length sites in
    let env0 := upd (upd (repeat dflt (L + 2)) 0 ledge) (L + 1) redge in
    do env1 <- left_fill oc 0 sites env0 ;
    right_fill (L - 1 - oc) (L - 1) sites env1.

  (** sources/MPT.cpp:27-74, 75-111 [move_oc]: [pull_left] is the treatment of the sites (oc-1, oc) when moving to the left,
      [push_right] of the sites (oc, oc+1) when moving to the right. *)
  Variable pull_left push_right : S -> S -> S * S.
  Fixpoint move_loop (k : nat) (left : bool) (sites : list S) (oc : Z) : result (list S * Z) :=
    match k with
    | 0 => Ok (sites, oc)
    | Datatypes.S k =>
        let i := if left then (oc - 1)%Z else oc in
        do a <- zget sites i ;
        do b <- zget sites (i + 1) ;
        let '(a', b') := (if left then pull_left else push_right) a b in
        do s1 <- zset sites i a' ;
        do s2 <- zset s1 (i + 1) b' ;
        move_loop k left s2 (if left then oc - 1 else oc + 1)%Z
    end.
  Definition move_oc (sites : list S) (oc : Z) (i : Z) : result (list S * Z) :=
    if negb ((0 <=? i) && (i <? Z.of_nat (length sites)))%Z then Throw InvalidArgument
    else if (i <? oc)%Z then move_loop (Z.to_nat (oc - i)) true sites oc
    else move_loop (Z.to_nat (i - oc)) false sites oc.

  (** sources/dmrg.cpp:240-258 and 300-318: sweeps until the convergence test says stop; [stop] is the outcome of the test after
      each iteration. *)
  Fixpoint iterate (k : nat) (it : nat) (stop : nat -> bool) (st : dst) (step : Z) (n : nat) (right_edge : Z) : result (dst * Z * list (list call)) :=
    match k with
    | 0 => Ok (st, step, [])
    | Datatypes.S k =>
        do (st', step', l) <- sweep n st step right_edge ;
        if stop it then Ok (st', step', [l])
        else do (st'', step'', ll) <- iterate k (Datatypes.S it) stop st' step' n right_edge ;
             Ok (st'', step'', l :: ll)
    end.
  (** sources/dmrg.cpp:219-273 (btensor, [dense = false]) and 277-334 (dense tensors). The chain has at least two sites. *)
  Definition dmrg_impl (dense : bool) (max_iter : nat) (stop : nat -> bool) (st : dst) : result (list S * Z * list (list call)) :=
    let L := Z.of_nat (length (d_sites st)) in
    let bonds := (L - 1)%Z in
    let nstep := (bonds - 1 + (if bonds =? 1 then 1 else 0))%Z in
    let step := if (bonds =? 1)%Z then 0%Z else if (d_oc st =? 0)%Z then 1%Z else (-1)%Z in
    let init := if (d_oc st =? L - 1)%Z then (d_oc st - 1)%Z else d_oc st in
    do (st', _, log) <- iterate max_iter 0 stop (mkDst (d_sites st) (d_env st) init) step (Z.to_nat (2 * nstep)) (L - 2)%Z ;
    let oc := d_oc st' in
    if (negb (oc =? init) && (negb (oc =? init - 1) && negb (init =? L - 1)))%Z then Throw RuntimeError
    else
      let oc := if dense then (oc + (if (oc =? 0)%Z then 1 else 0))%Z else oc in
      if (oc =? init)%Z then Ok (d_sites st', oc, log)
      else do (s, oc') <- move_oc (d_sites st') oc init ; Ok (s, oc', log).
End M.
