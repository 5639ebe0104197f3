(** A complex matrix of two rows: values for the example of C73. *)
From Verif Require Import Base Ring BTensor Num Eig2 SpecEig2 Eig2Proofs NumR.
From Coq Require Import Reals Lra.

(** The complex number x + i y. *)
Definition cc (x y : R) : num_C := (x, y).
Lemma cc_eq (x y x' y' : R) : x = x' -> y = y' -> cc x y = cc x' y'. Proof. intros -> ->. reflexivity. Qed.
Lemma cc_root : n_sqrt num_C (radd (rmul (rsub (cc 3 0) (cc 0 0)) (rsub (cc 3 0) (cc 0 0))) (rmul (rmul (two num_C) (two num_C)) (rmul (rconj (cc 0 2)) (cc 0 2)))) = cc 5 0.
Proof. cbn. apply cc_eq; [|reflexivity]. match goal with |- sqrt ?x = _ => replace x with (5 * 5)%R by ring end. apply sqrt_square. lra. Qed.
Lemma cc_run : exists o n, eig2x2 (cc 3 0) (cc 0 0) (cc 0 2) = Ok (Fin (cc (-1) 0), Fin o, Fin n).
Proof.
  destruct (@run_regular num_C (cc 3 0) (cc 0 0) (cc 0 2)) as (o & Q & _).
  - apply cc_eq; [reflexivity|cbn; lra].
  - apply cc_eq; [reflexivity|cbn; lra].
  - rewrite cc_root. intros H. apply (f_equal fst) in H. cbn in H. unfold cnorm in H. cbn in H. field_simplify in H. lra.
  - rewrite cc_root in Q. rewrite Q. eexists o, _. f_equal. f_equal. f_equal. f_equal. apply cc_eq; cbn; unfold cnorm; cbn; field; lra.
Qed.
