(** Scalars with division, comparison and square root: real or complex numbers without rounding. [n_leb x y]: [y - x] is real and
    not negative. *)
From Verif Require Import Base Ring.
Set Implicit Arguments.

Record numeric : Type := {
  n_ring :> ring;
  n_inv : n_ring -> n_ring;
  n_leb : n_ring -> n_ring -> bool;
  n_sqrt : n_ring -> n_ring;
  n_one : ro <> (rz : n_ring);
  n_inv_ok : forall x : n_ring, x <> rz -> rmul x (n_inv x) = ro;
  n_le_sub : forall x y : n_ring, n_leb x y = n_leb rz (rsub y x);
  n_nn_conj : forall x : n_ring, n_leb rz x = true -> rconj x = x;
  n_total : forall x : n_ring, rconj x = x -> n_leb rz x = true \/ n_leb rz (ropp x) = true;
  n_anti : forall x : n_ring, n_leb rz x = true -> n_leb rz (ropp x) = true -> x = rz;
  n_nn_add : forall x y : n_ring, n_leb rz x = true -> n_leb rz y = true -> n_leb rz (radd x y) = true;
  n_nn_mul : forall x y : n_ring, n_leb rz x = true -> n_leb rz y = true -> n_leb rz (rmul x y) = true;
  n_nn_sq : forall x : n_ring, n_leb rz (rmul (rconj x) x) = true;
  n_sqrt_nn : forall x : n_ring, n_leb rz x = true -> n_leb rz (n_sqrt x) = true;
  n_sqrt_sq : forall x : n_ring, n_leb rz x = true -> rmul (n_sqrt x) (n_sqrt x) = x;
}.

Section N.
  Variable N : numeric.
  Add Ring Rr : (ring_th N).
  Local Open Scope R_scope.
  Notation nn x := (n_leb N rz x = true).
  (** Order on real elements. *)
  Definition le (x y : N) : Prop := n_leb N x y = true.
  Definition two : N := radd ro ro.
  Definition ndiv (x y : N) : N := x * n_inv N y.

  Lemma mul_cancel (x y : N) : x <> rz -> x * y = rz -> y = rz.
  Proof. intros H E. transitivity (n_inv N x * (x * y)); [|rewrite E; ring]. transitivity ((x * n_inv N x) * y); [rewrite (n_inv_ok N H); ring|ring]. Qed.
  Lemma mul_zero (x y : N) : x * y = rz -> x = rz \/ y = rz.
  Proof. intros E. destruct (reqb x rz) eqn:Q; [left; apply reqb_spec, Q|right]. apply mul_cancel with x; [|exact E]. intros ->. rewrite (proj2 (reqb_spec N _ _) eq_refl) in Q. discriminate. Qed.
  Lemma conj0 : rconj rz = rz :> N.
  Proof. assert (E : rconj rz + rconj rz = rconj rz :> N) by (rewrite <- rconj_add; f_equal; ring). transitivity ((rconj rz + rconj rz) + - rconj rz : N); [|rewrite E]; ring. Qed.
  Lemma conj1 : rconj ro = ro :> N.
  Proof. transitivity (rconj ro * rconj (rconj ro) : N); [rewrite rconj_conj; ring|]. rewrite <- rconj_mul, rmul_1_l. apply rconj_conj. Qed.
  Lemma conj_opp (x : N) : rconj (- x) = - rconj x.
  Proof. assert (E : rconj x + rconj (- x) = rz) by (rewrite <- rconj_add, radd_opp; apply conj0). transitivity (- rconj x + (rconj x + rconj (- x))); [ring|rewrite E; ring]. Qed.
  Lemma conj_sub (x y : N) : rconj (rsub x y) = rsub (rconj x) (rconj y).
  Proof. unfold rsub. rewrite rconj_add, conj_opp. reflexivity. Qed.
  Lemma sq_zero (x : N) : rconj x * x = rz -> x = rz.
  Proof. intros E. apply mul_zero in E as [E|E]; [|exact E]. rewrite <- (rconj_conj N x), E. apply conj0. Qed.
  Lemma nn1 : nn ro.
  Proof. pose proof (n_nn_sq N ro) as H. rewrite rmul_1_r, conj1 in H. exact H. Qed.
  Lemma nn0 : nn rz.
  Proof. pose proof (n_nn_sq N rz) as H. rewrite rmul_0_r in H. exact H. Qed.
  Lemma nn_sum_zero (x y : N) : nn x -> nn y -> x + y = rz -> x = rz.
  Proof. intros Hx Hy E. apply n_anti; [exact Hx|]. replace (- x) with y; [exact Hy|]. transitivity ((x + y) + - x); [ring|rewrite E; ring]. Qed.
  Lemma two_neq : two <> rz.
  Proof. intros E. apply (n_one N). apply nn_sum_zero with ro; auto using nn1. Qed.
  Lemma nn_real_sq (x : N) : rconj x = x -> nn (x * x).
  Proof. intros E. rewrite <- E at 1. apply n_nn_sq. Qed.
  Lemma nn_inv (x : N) : nn x -> x <> rz -> nn (n_inv N x).
  Proof.
    intros H Z. assert (E : n_inv N x = x * (n_inv N x * n_inv N x)) by (transitivity (x * n_inv N x * n_inv N x); [rewrite (n_inv_ok N Z)|]; ring).
    rewrite E. apply n_nn_mul; [exact H|]. apply nn_real_sq. assert (C : x * rconj (n_inv N x) = ro) by (rewrite <- (n_nn_conj N _ H) at 1; rewrite <- rconj_mul, (n_inv_ok N Z); apply conj1).
    transitivity (n_inv N x * (x * rconj (n_inv N x))); [transitivity ((x * n_inv N x) * rconj (n_inv N x)); [rewrite (n_inv_ok N Z); ring|ring]|rewrite C; ring].
  Qed.
  Lemma nn_div (x y : N) : nn x -> nn y -> y <> rz -> nn (ndiv x y).
  Proof. intros Hx Hy Z. apply n_nn_mul; [exact Hx|apply nn_inv; auto]. Qed.
  (** A non negative multiple is non negative. *)
  Lemma nn_factor (p x : N) : nn p -> p <> rz -> nn (p * x) -> nn x.
  Proof. intros Hp Z H. replace x with (n_inv N p * (p * x)); [apply n_nn_mul; [apply nn_inv; auto|exact H]|]. transitivity ((p * n_inv N p) * x); [ring|rewrite (n_inv_ok N Z); ring]. Qed.
  Lemma le_nn (x y : N) : le x y <-> nn (rsub y x).
  Proof. unfold le. rewrite n_le_sub. reflexivity. Qed.
  Lemma le_refl (x : N) : le x x.
  Proof. apply le_nn. replace (rsub x x) with (rz : N); [apply nn0|unfold rsub; ring]. Qed.
  Lemma le_trans (x y z : N) : le x y -> le y z -> le x z.
  Proof. rewrite !le_nn. intros H1 H2. replace (rsub z x) with (rsub y x + rsub z y); [apply n_nn_add; auto|unfold rsub; ring]. Qed.
  Lemma le_anti (x y : N) : le x y -> le y x -> x = y.
  Proof. rewrite !le_nn. intros H1 H2. assert (E : rsub y x = rz) by (apply n_anti; [exact H1|]; replace (- rsub y x) with (rsub x y); [exact H2|unfold rsub; ring]). transitivity (x + rsub y x); [rewrite E; ring|unfold rsub; ring]. Qed.
  Lemma div_mul (x y : N) : y <> rz -> y * ndiv x y = x.
  Proof. intros Z. unfold ndiv. transitivity ((y * n_inv N y) * x); [ring|rewrite (n_inv_ok N Z); ring]. Qed.
  Lemma mul_eq (p x y : N) : p <> rz -> p * x = p * y -> x = y.
  Proof. intros Z E. assert (D : p * (x + - y) = rz) by (transitivity (p * x + - (p * y)); [ring|rewrite E; ring]). apply mul_cancel in D; [|exact Z]. transitivity (x + - y + y); [ring|rewrite D; ring]. Qed.
  Lemma eq_dec (x y : N) : {x = y} + {x <> y}.
  Proof. destruct (reqb x y) eqn:E; [left; apply reqb_spec, E|right; intros H; apply reqb_spec in H; congruence]. Qed.
  Lemma real_mul (x y : N) : rconj x = x -> rconj y = y -> rconj (x * y) = x * y.
  Proof. intros Hx Hy. rewrite rconj_mul, Hx, Hy. reflexivity. Qed.
  Lemma real_sub (x y : N) : rconj x = x -> rconj y = y -> rconj (rsub x y) = rsub x y.
  Proof. intros Hx Hy. rewrite conj_sub, Hx, Hy. reflexivity. Qed.
End N.
