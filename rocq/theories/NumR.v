(** The real and the complex numbers: values for examples. *)
From Verif Require Import Base Ring Num.
From Coq Require Import Reals Lra.
Local Open Scope R_scope.

Definition req (x y : R) : bool := if Req_EM_T x y then true else false.
Definition rle (x y : R) : bool := if Rle_dec x y then true else false.
Lemma req_spec x y : req x y = true <-> x = y. Proof. unfold req. destruct (Req_EM_T x y); split; congruence. Qed.
Lemma rle_spec x y : rle x y = true <-> x <= y. Proof. unfold rle. destruct (Rle_dec x y); split; congruence || tauto. Qed.

Definition ring_R : ring.
Proof.
  refine {| rT := R; Ring.rz := 0; Ring.ro := 1; Ring.radd := Rplus; Ring.rmul := Rmult; Ring.ropp := Ropp; Ring.rconj := fun x => x; Ring.reqb := req |}; intros; try ring; auto using req_spec.
Defined.
Definition num_R : numeric.
Proof.
  refine {| n_ring := ring_R; n_inv := Rinv : ring_R -> ring_R; n_leb := rle : ring_R -> ring_R -> bool; n_sqrt := sqrt : ring_R -> ring_R |}; cbn; intros; unfold Ring.rsub in *; cbn in *; rewrite ?rle_spec in *; auto.
  - apply Rinv_r; assumption.
  - apply eq_true_iff_eq. rewrite !rle_spec. lra.
  - lra.
  - lra.
  - lra.
  - apply Rmult_le_pos; lra.
  - apply Rle_0_sqr.
  - apply sqrt_pos.
  - apply sqrt_sqrt. assumption.
Defined.

(** Complex numbers as pairs. *)
Definition cx := (R * R)%type.
Definition ceq (x y : cx) : bool := req (fst x) (fst y) && req (snd x) (snd y).
Lemma cx_eq (x y : cx) : fst x = fst y -> snd x = snd y -> x = y. Proof. destruct x, y; cbn; intros -> ->; reflexivity. Qed.
Lemma ceq_spec x y : ceq x y = true <-> x = y.
Proof. unfold ceq. rewrite andb_true_iff, !req_spec. split; [intros [? ?]; apply cx_eq; auto|intros ->; auto]. Qed.
Definition ring_C : ring.
Proof.
  refine {| rT := cx; Ring.rz := (0, 0); Ring.ro := (1, 0); Ring.radd := fun x y => (fst x + fst y, snd x + snd y);
    Ring.rmul := fun x y => (fst x * fst y - snd x * snd y, fst x * snd y + snd x * fst y); Ring.ropp := fun x => (- fst x, - snd x);
    Ring.rconj := fun x => (fst x, - snd x); Ring.reqb := ceq |}; intros; try (apply cx_eq; cbn; ring); auto using ceq_spec.
Defined.
Definition cnorm (x : cx) : R := fst x * fst x + snd x * snd x.
Lemma cnorm_pos x : x <> (0, 0) -> 0 < cnorm x.
Proof.
  intros H. unfold cnorm. pose proof (Rle_0_sqr (fst x)) as H1. pose proof (Rle_0_sqr (snd x)) as H2. unfold Rsqr in *.
  destruct (Req_EM_T (fst x) 0) as [A|A]; [destruct (Req_EM_T (snd x) 0) as [B|B]|].
  - exfalso. apply H, cx_eq; auto.
  - pose proof (Rsqr_pos_lt _ B). unfold Rsqr in *. lra.
  - pose proof (Rsqr_pos_lt _ A). unfold Rsqr in *. lra.
Qed.
Definition cle (x y : cx) : bool := rle (fst x) (fst y) && req (snd x) (snd y).
Lemma cle_spec x y : cle x y = true <-> fst x <= fst y /\ snd x = snd y. Proof. unfold cle. rewrite andb_true_iff, rle_spec, req_spec. reflexivity. Qed.
Definition num_C : numeric.
Proof.
  refine {| n_ring := ring_C; n_inv := (fun x => (fst x / cnorm x, - snd x / cnorm x)) : ring_C -> ring_C; n_leb := cle : ring_C -> ring_C -> bool;
    n_sqrt := (fun x => (sqrt (fst x), 0)) : ring_C -> ring_C |}; cbn; intros; unfold Ring.rsub in *; cbn in *; rewrite ?cle_spec in *; cbn in *.
  - intros H. injection H. lra.
  - pose proof (cnorm_pos x H). apply cx_eq; cbn; field_simplify; unfold cnorm in *; try lra. field; lra.
  - apply eq_true_iff_eq. rewrite !cle_spec. cbn. lra.
  - apply cx_eq; cbn; lra.
  - apply (f_equal snd) in H. cbn in H. lra.
  - apply cx_eq; cbn; lra.
  - lra.
  - destruct H as [H <-], H0 as [H0 <-]. split; [|ring]. assert (0 <= fst x * fst y) by (apply Rmult_le_pos; lra). lra.
  - split; [|ring]. pose proof (Rle_0_sqr (fst x)) as H1. pose proof (Rle_0_sqr (snd x)) as H2. unfold Rsqr in *. lra.
  - split; [apply sqrt_pos|ring].
  - apply cx_eq; cbn; [rewrite sqrt_sqrt; lra|lra].
Defined.
