(** Two spins with the first Pauli matrix on the first of them: values for the examples of C74. *)
From Verif Require Import Base Ring SpecIndex Dense IndexProofs BTensor Num Lanczos SpecLanczos LanczosProofs.
Set Implicit Arguments.

Section Ex.
  Variable N : numeric.
  Add Ring Rr : (ring_th N).
  Ltac red_ex := cbn; cbv beta iota delta [Nat.eqb andb negb].
  Definition ex_env : dense N := mkD [1; 1; 1] (fun _ => ro).
  Definition ex_flip : dense N := mkD [1; 2; 2; 1; 2; 2] (fun i => if negb (nth 1 i 0 =? nth 4 i 0) && (nth 2 i 0 =? nth 5 i 0) then ro else rz).
  Definition ex_up : dense N := mkD [1; 2; 2; 1] (fun i => if (nth 1 i 0 =? 0) && (nth 2 i 0 =? 0) then ro else rz).
  (** The number [lam] on one state, and that state. *)
  Definition ex_num (lam : N) : dense N := mkD [1; 1; 1; 1; 1; 1] (fun _ => lam).
  Definition ex_one : dense N := mkD [1; 1; 1; 1] (fun _ => ro).
  Notation M := (heff ex_env ex_flip ex_env).
  Lemma flip_val i j : M i j = if negb (nth 1 i 0 =? nth 1 j 0) && (nth 2 i 0 =? nth 2 j 0) then ro else rz.
  Proof. unfold heff. cbn [ex_env ex_flip dsh dv nth seq]. rewrite !sumf_cons, !sumf_nil. cbn [dv nth]. ring. Qed.
  Lemma flip_hermitian sh : hermitian_kernel sh M.
  Proof. intros i j _ _. rewrite !flip_val, (Nat.eqb_sym (nth 1 i 0)), (Nat.eqb_sym (nth 2 i 0)). destruct (_ && _); [apply conj1|apply conj0]. Qed.
  Lemma up_norm : sprod [1; 2; 2; 1] (dv ex_up) (dv ex_up) = ro.
  Proof. unfold sprod. red_ex. rewrite conj1, conj0. ring. Qed.
  Lemma up_energy : energy [1; 2; 2; 1] M (dv ex_up) = rz.
  Proof. unfold energy, sprod, apply. cbn [idxs seq flat_map map app]. rewrite !sumf_cons, !sumf_nil, !flip_val. red_ex. rewrite ?conj1, ?conj0. ring. Qed.
  Lemma up_residual : sprod [1; 2; 2; 1] (residual [1; 2; 2; 1] M (dv ex_up)) (residual [1; 2; 2; 1] M (dv ex_up)) = ro.
  Proof.
    unfold sprod, residual. rewrite up_energy. unfold apply. cbn [idxs seq flat_map map app]. rewrite !sumf_cons, !sumf_nil, !flip_val. red_ex. unfold rsub.
    rewrite ?rconj_add, ?rconj_mul, ?conj_opp, ?rconj_mul, ?conj1, ?conj0. ring.
  Qed.
  Lemma num_val lam i j : heff ex_env (ex_num lam) ex_env i j = lam.
  Proof. unfold heff. cbn [ex_env ex_num dsh dv nth seq]. rewrite !sumf_cons, !sumf_nil. ring. Qed.
  Lemma one_eigen lam i : apply [1; 1; 1; 1] (heff ex_env (ex_num lam) ex_env) (dv ex_one) i = rmul lam (dv ex_one i).
  Proof. unfold apply. cbn [idxs seq flat_map map app]. rewrite !sumf_cons, !sumf_nil, num_val. cbn. ring. Qed.
  Lemma one_norm : sprod [1; 1; 1; 1] (dv ex_one) (dv ex_one) = ro.
  Proof. unfold sprod. red_ex. rewrite conj1. ring. Qed.
  Lemma num_hermitian lam sh : rconj lam = lam -> hermitian_kernel sh (heff ex_env (ex_num lam) ex_env).
  Proof. intros E i j _ _. rewrite !num_val. exact E. Qed.
  Lemma num_fits lam : fits ex_env (ex_num lam) ex_env 1 1 1 1. Proof. exists 1, 1. repeat split. Qed.
  Lemma update_zero (eps : N) : le N rz eps -> eps <> rz -> exists L H E s : dense N, fits L H E 1 1 1 1 /\ dsh s = [1; 1; 1; 1] /\ hermitian_kernel [1; 1; 1; 1] (heff L H E) /\ sprod [1; 1; 1; 1] (dv s) (dv s) = ro /\
    energy [1; 1; 1; 1] (heff L H E) (dv s) = ro /\ exists Et U, t_update eps s H L E = Ok (Et, U) /\ dv Et [] = rz /\ sprod [1; 1; 1; 1] (dv U) (dv U) = rz.
  Proof.
    intros P Z. exists ex_env, (ex_num ro), ex_env, ex_one. split; [apply num_fits|]. split; [reflexivity|]. split; [apply num_hermitian, conj1|]. split; [apply one_norm|]. split.
    - unfold energy, sprod. cbn [idxs seq flat_map map app]. rewrite !sumf_cons, !sumf_nil, one_eigen. cbn. rewrite conj1. ring.
    - destruct (@update_eigen N ex_env (ex_num ro) ex_env 1 1 1 1 (num_fits ro) eps ex_one eq_refl (@num_hermitian ro _ (conj1 N)) one_norm P Z ro) as (Et & U & EU & _ & _ & K); [intros; apply one_eigen|].
      rewrite (nn1 N) in K. destruct K as [K1 K2]. exists Et, U. split; [exact EU|]. split; [exact K1|]. apply sumf_zero. intros i Hi. apply idxs_In in Hi. rewrite K2 by exact Hi. ring.
  Qed.
  Lemma update_minus (eps : N) : le N rz eps -> eps <> rz -> exists Et U, t_update eps ex_one (ex_num (ropp ro)) ex_env ex_env = Ok (Et, U) /\ dv Et [] = ropp ro /\ dv U [0; 0; 0; 0] = ro.
  Proof.
    intros P Z. assert (C : rconj (ropp ro) = ropp ro :> N) by (rewrite conj_opp, conj1; reflexivity).
    destruct (@update_eigen N ex_env (ex_num (ropp ro)) ex_env 1 1 1 1 (num_fits _) eps ex_one eq_refl (@num_hermitian _ _ C) one_norm P Z (ropp ro)) as (Et & U & EU & _ & _ & K); [intros; apply one_eigen|].
    destruct (n_leb N rz (ropp ro)) eqn:Q; [exfalso; apply (n_one N); apply n_anti; [apply nn1|exact Q]|]. destruct K as [K1 K2]. exists Et, U. split; [exact EU|]. split; [exact K1|]. rewrite K2; reflexivity.
  Qed.
End Ex.
