(** The lowest eigenvector of a Hermitian matrix with two rows (C73). *)
From Verif Require Import Base Ring BTensor Num Eig2 SpecEig2 Eig2Proofs NumR Eig2Ex.
From Coq Require Import Reals Lra.

(** C73. For real diagonal elements and any coupling: no exception, the numbers returned are finite, and they are the lowest
    eigenvalue and a normalized eigenvector whose first component is not negative. *)
Theorem C73_ground : forall (N : numeric) (a0 a1 b : N), rconj a0 = a0 -> rconj a1 = a1 ->
  exists E o n, eig2x2 a0 a1 b = Ok (Fin E, Fin o, Fin n) /\ ground2 a0 a1 b E o n /\ le N rz o.
Proof. exact (@eig2x2_ok). Qed.
Print Assumptions C73_ground.
(** Without coupling the vector is one of the two basis vectors; the second when the diagonal elements are equal. *)
Theorem C73_uncoupled : forall (N : numeric) (a0 a1 b : N), rconj a0 = a0 -> rconj a1 = a1 -> b = rz ->
  eig2x2 a0 a1 b = if n_leb N a1 a0 then Ok (Fin a1, Fin rz, Fin ro) else Ok (Fin a0, Fin ro, Fin rz).
Proof. exact (@eig2x2_diag). Qed.
Print Assumptions C73_uncoupled.

(** Rows (3, -2i) and (2i, 0): the lowest eigenvalue is -1. *)
Example C73_ex : exists o n, eig2x2 (cc 3 0) (cc 0 0) (cc 0 2) = Ok (Fin (cc (-1) 0), Fin o, Fin n) /\ ground2 (cc 3 0) (cc 0 0) (cc 0 2) (cc (-1) 0) o n.
Proof.
  destruct cc_run as (o & n & Q). exists o, n. split; [exact Q|].
  destruct (C73_ground num_C (cc 3 0) (cc 0 0) (cc 0 2)) as (E & o' & n' & Q' & G & _); [apply cc_eq; [reflexivity|cbn; lra]..|].
  rewrite Q in Q'. injection Q' as <- <- <-. exact G.
Qed.
(** Real numbers, multiple of the identity: the second basis vector. *)
Example C73_ex_identity : eig2x2 (2%R : num_R) (2%R : num_R) (0%R : num_R) = Ok (Fin (2%R : num_R), Fin (0%R : num_R), Fin (1%R : num_R)).
Proof. rewrite C73_uncoupled by reflexivity. cbn. rewrite (proj2 (rle_spec 2 2)) by lra. reflexivity. Qed.
Print Assumptions C73_ex.
