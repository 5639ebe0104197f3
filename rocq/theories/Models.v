(** Model of the dense operators and Hamiltonians: [pauli], [fermions], [Heisenberg], [Hubbard] (dense versions). The dtype of
    the tensors (int8, default) and the rounding of its arithmetic are not modelled. *)
From Verif Require Import Base Ring Index SpecIndex Dense BTensor BTensorArith Tensordot View.
Set Implicit Arguments.

Section Models.
  Context {R : ring}.
  Notation D := (dense R).
  Local Open Scope R_scope.

  (** Assignment of one element through an accessor. *)
  Definition d_set (i : list nat) (v : R) (t : D) : D := mkD (dsh t) (fun j => if leqb j i then v else dv t j).
  (** [torch::zeros({n, n})] followed by accessor assignments. *)
  Definition assigned (n : nat) (l : list (nat * nat * R)) : D :=
    fold_left (fun t '(i, j, v) => d_set [i; j] v t) l (d_zeros [n; n]).

  (** sources/operators.cpp:59-88 [pauli]: Sx, iSy, Sz, lo, id. Chained assignments evaluate the right one first. *)
  Definition pauli : D * D * D * D * D :=
    (assigned 2 [(1, 0, ro); (0, 1, ro)], assigned 2 [(1, 0, - ro); (0, 1, - (- ro))], assigned 2 [(1, 1, - ro); (0, 0, - (- ro))],
     assigned 2 [(0, 1, ro)], assigned 2 [(1, 1, ro); (0, 0, ro)])%nat%R.

  (** sources/operators.cpp:21-40 [fermions]: c_up, c_dn, F, id *)
  Definition fermions : D * D * D * D :=
    (assigned 4 [(0, 1, ro); (2, 3, ro)], assigned 4 [(0, 2, ro); (1, 3, - ro)],
     assigned 4 [(3, 3, ro); (0, 0, ro); (2, 2, - ro); (1, 1, - ro)], assigned 4 [(3, 3, ro); (2, 2, ro); (1, 1, ro); (0, 0, ro)])%nat%R.

  (** [local_tens.index_put_({r, Slice(), c, Slice()}, m)] *)
  Definition put_op (r c : nat) (m : D) (t : D) : result D := t_index_put [Some (Z.of_nat r); None; Some (Z.of_nat c); None] m t.
  (** Scalar times tensor, [t()] of a matrix *)
  Definition scale (x : R) (t : D) : D := d_map (rmul x) t.
  Definition transp (t : D) : D := d_permute [1; 0]%nat t.
  (** [x.conj().t()] *)
  Definition dagger (t : D) : D := transp (d_map rconj t).

  (** [MPO out(lenght, local_tens)], [out[0] = out[0].index({Slice(r, r+1), ...})] and
      [out[lenght-1] = out[lenght-1].index({..., Slice(0,1), Slice()})] (sources/models.cpp:59-61 and 143-145). With no site the
      subscript is out of range. *)
  Definition trim_left (r : nat) (t : D) : D :=
    match dsh t with [a; p; b; q] => d_slice [r; 0; 0; 0]%nat [1; p; b; q]%nat t | _ => t end.
  Definition trim_right (t : D) : D :=
    match dsh t with [a; p; b; q] => d_slice [0; 0; 0; 0]%nat [a; p; 1; q]%nat t | _ => t end.
  Definition chain_of (r : nat) (n : nat) (t : D) : result (list D) :=
    match n with
    | 0%nat => UB
    | S m =>
        let out := upd (repeat t n) 0%nat (trim_left r t) in
        do l <- rnth out m ; Ok (upd out m (trim_right l))
    end.

  (** sources/models.cpp:38-63 [Heisenberg_impl], for a rank zero [J] *)
  Definition Heisenberg_local (J : R) : result D :=
    let '(sx, isy, sz, lo, id) := pauli in
    let hi := transp lo in
    let two := ro + ro in
    do t <- put_op 0 0 id (d_zeros [5; 2; 5; 2]%nat) ;
    do t <- put_op 1 0 lo t ;
    do t <- put_op 2 0 hi t ;
    do t <- put_op 3 0 sz t ;
    do t <- put_op 4 0 (d_zeros [2; 2]%nat) t ;
    do t <- put_op 4 1 (scale (two * J) hi) t ;
    do t <- put_op 4 2 (scale (two * J) lo) t ;
    do t <- put_op 4 3 (scale J sz) t ;
    put_op 4 4 id t.
  Definition Heisenberg_impl (J : R) (n : nat) : result (list D) := do t <- Heisenberg_local J ; chain_of 4 n t.
  (** sources/models.cpp:64-67 [Heisenberg]; [quarter] is the division by 4 *)
  Definition Heisenberg (quarter : R -> R) (J : R) (n : nat) : result (list D) := Heisenberg_impl (quarter (- J)) n.

  (** sources/models.cpp:117-147 [Hubbard], for rank zero [U], [mu] *)
  Definition Hubbard_local (U mu : R) : result D :=
    let '(c_up, c_dn, F, id) := fermions in
    do n_up <- t_mm (dagger c_up) c_up ;
    do n_dn <- t_mm (dagger c_dn) c_dn ;
    do nn <- t_mm n_up n_dn ;
    let Local := d_zip rsub (scale U nn) (scale mu (d_zip radd n_up n_dn)) in
    do a1 <- t_mm (dagger c_up) F ;
    do a2 <- t_mm (dagger c_dn) F ;
    do a3 <- t_mm F c_up ;
    do a4 <- t_mm F c_dn ;
    do t <- put_op 0 0 id (d_zeros [6; 4; 6; 4]%nat) ;
    do t <- put_op 1 0 c_up t ;
    do t <- put_op 2 0 c_dn t ;
    do t <- put_op 3 0 (dagger c_up) t ;
    do t <- put_op 4 0 (dagger c_dn) t ;
    do t <- put_op 5 0 Local t ;
    do t <- put_op 5 1 a1 t ;
    do t <- put_op 5 2 a2 t ;
    do t <- put_op 5 3 a3 t ;
    do t <- put_op 5 4 a4 t ;
    put_op 5 5 id t.
  Definition Hubbard (U mu : R) (n : nat) : result (list D) := do t <- Hubbard_local U mu ; chain_of 5 n t.
End Models.
