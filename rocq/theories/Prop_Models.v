(** Property theorems about the Hamiltonians (C49) and the fermion operators (C62). *)
From Verif Require Import Base Ring SpecIndex Dense BTensor Models SpecModels ModelsEx.

(** C49, Heisenberg: J times the sum over neighbours of sigma.sigma, for the coupling [J] of [Heisenberg_impl]; minus a quarter of
    the coupling passed to [Heisenberg]. *)
Theorem C49_Heisenberg_impl : forall (R : ring) (J : R) n, 0 < n ->
  exists Ws, Heisenberg_impl J n = Ok Ws /\ length Ws = n /\ mpo_shape 2 1 Ws 1 /\
    ceq 2 n (mpo_op Ws) (cscale J (csum (fun i => sigma_sigma R n i) (seq 0 (n - 1)))).
Proof. exact (@Heisenberg_impl_spec). Qed.
Print Assumptions C49_Heisenberg_impl.
Theorem C49_Heisenberg : forall (R : ring) quarter (J : R) n, (forall x : R, rmul (radd (radd ro ro) (radd ro ro)) (quarter x) = x) -> 0 < n ->
  exists Ws, Heisenberg quarter J n = Ok Ws /\ length Ws = n /\ mpo_shape 2 1 Ws 1 /\
    ceq 2 n (cscale (radd (radd ro ro) (radd ro ro)) (mpo_op Ws)) (cscale (ropp J) (csum (fun i => sigma_sigma R n i) (seq 0 (n - 1)))).
Proof. exact (@Heisenberg_spec). Qed.
Print Assumptions C49_Heisenberg.
Example C49_Heisenberg_ex : rmap (fun Ws => (mpo_op Ws [0; 1; 0] [1; 0; 0], mpo_op Ws [0; 1; 0] [0; 1; 0], mpo_op Ws [0; 1; 1] [0; 1; 1]))
  (Heisenberg_impl (R := ring_Z) 5%Z 3) = Ok (10, -10, 0)%Z.
Proof. vm_compute. reflexivity. Qed.

(** C49, Hubbard: local terms U n_up n_dn - mu (n_up + n_dn) and hopping C^dag_i C_(i+1) + C^dag_(i+1) C_i for both spins, in terms of
    the fermion operators of the whole chain. (The hopping has a plus sign; the comment above the function announces a minus.) *)
Theorem C49_Hubbard : forall (R : ring) (U mu : R) c_up c_dn F id n, fermions (R := R) = (c_up, c_dn, F, id) -> 0 < n ->
  let C s i := with_string n i (of_dense F) (of_dense (if s : bool then c_up else c_dn)) in
  let N s i := cmul 4 n (cadj (C s i)) (C s i) in
  let hop s i j := cmul 4 n (cadj (C s i)) (C s j) in
  exists Ws, Hubbard U mu n = Ok Ws /\ length Ws = n /\ mpo_shape 4 1 Ws 1 /\
    ceq 4 n (mpo_op Ws)
      (cadd (csum (fun i => cadd (cscale U (cmul 4 n (N true i) (N false i))) (cscale (ropp mu) (cadd (N true i) (N false i)))) (seq 0 n))
            (csum (fun i => csum (fun s => cadd (hop s i (S i)) (hop s (S i) i)) [true; false]) (seq 0 (n - 1)))).
Proof. exact (@Hubbard_spec). Qed.
Print Assumptions C49_Hubbard.
Example C49_Hubbard_ex : rmap (fun Ws => (mpo_op Ws [3; 0] [3; 0], mpo_op Ws [1; 0] [0; 1], mpo_op Ws [3; 0] [2; 1], mpo_op Ws [1; 2] [0; 3]))
  (Hubbard (R := ring_Z) 5%Z 1%Z 2) = Ok (3, 1, -1, 1)%Z.
Proof. vm_compute. reflexivity. Qed.

(** A chain without sites: the first element of an empty vector is accessed. *)
Theorem C49_no_site : forall (R : ring) (J U mu : R), Heisenberg_impl J 0 = UB /\ Hubbard U mu 0 = UB.
Proof. exact (@no_site). Qed.
Print Assumptions C49_no_site.

(** C62. Canonical anticommutation relations of the operators with parity strings. *)
Theorem C62_anticommutation : forall (R : ring) c_up c_dn F id n i j (s t : bool), fermions (R := R) = (c_up, c_dn, F, id) -> i < n -> j < n ->
  let C s i := with_string n i (of_dense F) (of_dense (if s : bool then c_up else c_dn)) in
  ceq 4 n (anti 4 n (C s i) (C t j)) (czero R) /\
  ceq 4 n (anti 4 n (C s i) (cadj (C t j))) (if (i =? j) && Bool.eqb s t then @cone R else czero R).
Proof. exact (@fermions_car). Qed.
Print Assumptions C62_anticommutation.
Example C62_ex : exists c_up c_dn F id, fermions (R := ring_Z) = (c_up, c_dn, F, id) /\
  with_string 2 1 (of_dense F) (of_dense c_up) [1; 0] [1; 1] = (-1)%Z /\ with_string 2 0 (of_dense F) (of_dense c_up) [0; 1] [1; 1] = 1%Z.
Proof. do 4 eexists. split; [reflexivity|]. split; vm_compute; reflexivity. Qed.
