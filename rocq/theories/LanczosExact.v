(** When the update of two sites does what it should. *)
From Verif Require Import Base Ring Index SpecIndex Dense IndexProofs BTensor Num Eig2 SpecEig2 Eig2Proofs Lanczos SpecLanczos LanczosVec LanczosProofs.
Set Implicit Arguments.

Section X.
  Variable N : numeric.
  Add Ring Rx : (ring_th N).
  Notation t := (dense N).
  Notation nn x := (n_leb N rz x = true).

  Lemma sum_zero_each A (f : A -> N) l : (forall a, nn (f a)) -> sumf N f l = rz -> forall a, In a l -> f a = rz.
  Proof.
    intros P. induction l as [|c l IH]; [intros _ a []|]. intros Q a [<-|Ha].
    - apply nn_sum_zero with (sumf N f l); [apply P|apply nn_sum; auto|exact Q].
    - apply IH; [|exact Ha]. apply nn_sum_zero with (f c); [apply nn_sum; auto|apply P|]. transitivity (radd (f c) (sumf N f l)); [ring|exact Q].
  Qed.
  Variables L H E : t.
  Variables x p p' x' : nat.
  Hypothesis F : fits L H E x p p' x'.
  Notation sh := [x; p; p'; x'].
  Notation M := (heff L H E).
  Variable eps : N.
  Variable s : t.
  Hypothesis Ss : dsh s = sh.
  Hypothesis HM : hermitian_kernel sh M.
  Notation v := (dv s).
  Notation r := (residual sh M v).
  Notation b := (n_sqrt N (sprod sh r r)).
  Hypothesis Nv : sprod sh v v = ro.
  Hypothesis Pe : nn eps.
  Hypothesis Ze : eps <> rz.

  Lemma zero_not_one : rz <> ro :> N.
  Proof. intros Q. apply Ze. transitivity (rmul ro eps); [ring|]. rewrite <- Q. ring. Qed.

  Lemma eps_b : ~ le N (rmul eps eps) (sprod sh r r) -> n_leb N eps b = false.
  Proof.
    intros Hr. destruct (n_leb N eps b) eqn:Q; [|reflexivity]. destruct Hr. assert (BS : rmul b b = sprod sh r r) by (apply n_sqrt_sq, sprod_nn). rewrite <- BS.
    assert (BN : nn b) by (apply n_sqrt_nn, sprod_nn). apply le_nn. apply le_nn in Q. replace (rsub (rmul b b) (rmul eps eps)) with (rmul (radd b eps) (rsub b eps)) by (unfold rsub; ring). apply n_nn_mul; [apply n_nn_add; auto|exact Q].
  Qed.
  (** A residual that is not zero but below the threshold is not normalized, and neither is the state returned. *)
  Lemma update_small : sprod sh r r <> rz -> ~ le N (rmul eps eps) (sprod sh r r) -> le N (rmul eps eps) ro ->
    exists Et U, t_update eps s H L E = Ok (Et, U) /\ dsh Et = [] /\ dsh U = sh /\ le N (sprod sh (dv U) (dv U)) ro /\ sprod sh (dv U) (dv U) <> ro.
  Proof.
    intros Z Hr H1. destruct (update_run F eps s Ss HM) as (psi & a0 & a1 & e & o & n & _ & (G1 & _ & G3 & _) & -> & -> & VP & Et & U & EU & SE & _ & SU & VU).
    exists Et, U. split; [exact EU|]. split; [exact SE|]. split; [exact SU|].
    assert (PR : forall i, in_range sh i = true -> psi i = r i) by (intros i Hi; rewrite VP, (eps_b Hr) by auto; reflexivity).
    assert (NB : b <> rz). { intros Q. apply Z. rewrite <- (@n_sqrt_sq N (sprod sh r r)) by apply sprod_nn. rewrite Q. ring. }
    set (k := sprod sh r r) in *.
    assert (NU : sprod sh (dv U) (dv U) = radd (rmul (rconj o) o) (rmul (rmul (rconj n) n) k)).
    { rewrite (@sprod_ext N sh (dv U) (dv U) (comb o n v r) (comb o n v r)) by (intros i Hi; rewrite VU by auto; unfold comb; rewrite PR by auto; reflexivity).
      rewrite sprod_comb_l, !sprod_comb_r, Nv, <- (@sprod_conj N sh v r), (@residual_orth N sh M v Nv), conj0. fold k. ring. }
    assert (NZ : n <> rz). { intros ->. assert (Q : rmul (n_sqrt N k) o = rz) by (transitivity (radd (rmul (n_sqrt N k) o) (rmul (energy sh M psi) rz)); [ring|rewrite G3; ring]). apply mul_zero in Q as [Q|Q]; [contradiction|]. subst o. apply zero_not_one. rewrite <- G1. unfold norm2. rewrite conj0. ring. }
    assert (RK : rconj (rsub (rmul eps eps) k) = rsub (rmul eps eps) k) by (apply real_sub; [apply real_mul; apply n_nn_conj; exact Pe|apply n_nn_conj, sprod_nn]).
    assert (LT : nn (rsub ro k)).
    { apply (proj1 (le_nn N k ro)). apply le_trans with (rmul eps eps); [|exact H1]. apply (proj2 (le_nn N k (rmul eps eps))). destruct (n_total N RK) as [Q|Q]; [exact Q|]. destruct Hr. apply le_nn.
      assert (Q' : ropp (rsub (rmul eps eps) k) = rsub k (rmul eps eps)) by (unfold rsub; ring). rewrite Q' in Q. exact Q. }
    assert (D : rsub ro (sprod sh (dv U) (dv U)) = rmul (rmul (rconj n) n) (rsub ro k)) by (rewrite NU; transitivity (rsub (norm2 o n) (radd (rmul (rconj o) o) (rmul (rmul (rconj n) n) k))); [rewrite G1; reflexivity|unfold norm2, rsub; ring]).
    split; [apply le_nn; rewrite D; apply n_nn_mul; [apply n_nn_sq|exact LT]|]. intros Q. assert (W : rmul (rmul (rconj n) n) (rsub ro k) = rz) by (rewrite <- D, Q; unfold rsub; ring).
    apply mul_zero in W as [W|W]; [apply NZ, sq_zero; exact W|]. apply Hr. assert (k = ro) as -> by (transitivity (rsub ro (rsub ro k)); [unfold rsub; ring|rewrite W; unfold rsub; ring]). exact H1.
  Qed.

  (** The claim holds of exactly the states with a residual above the threshold and the eigenvectors of negative energy. *)
  Lemma update_exact : le N (rmul eps eps) ro ->
    exists Et U, t_update eps s H L E = Ok (Et, U) /\ dsh Et = [] /\ dsh U = sh /\
      (krylov_ground sh M v (dv Et []) (dv U) <-> le N (rmul eps eps) (sprod sh r r) \/ sprod sh r r = rz /\ ~ le N rz (energy sh M v)).
  Proof.
    intros H1. destruct (eq_dec N (sprod sh r r) rz) as [Z|Z].
    - assert (RZ : forall i, in_range sh i = true -> r i = rz).
      { intros i Hi. apply sq_zero. pose proof (@sum_zero_each _ (fun i => rmul (rconj (r i)) (r i)) (idxs sh)) as K. apply K; [intros; apply n_nn_sq|exact Z|apply idxs_In; exact Hi]. }
      assert (EV : forall i, in_range sh i = true -> apply sh M v i = rmul (energy sh M v) (v i)).
      { intros i Hi. transitivity (radd (r i) (rmul (energy sh M v) (v i))); [unfold residual, rsub; ring|rewrite RZ by auto; ring]. }
      destruct (update_eigen F s Ss HM Nv Pe Ze _ EV) as (Et & U & EU & SE & SU & K). exists Et, U. split; [exact EU|]. split; [exact SE|]. split; [exact SU|]. destruct (n_leb N rz (energy sh M v)) eqn:EL.
      + destruct K as (K1 & K2). split.
        * intros (Q & _). exfalso. apply zero_not_one. rewrite <- Q. symmetry. apply sumf_zero. intros i Hi. apply idxs_In in Hi. rewrite K2 by auto. ring.
        * intros [Q|(_ & Q)]; [|exfalso; apply Q; exact EL]. exfalso. rewrite Z in Q. apply le_nn in Q. assert (Q' : rsub rz (rmul eps eps) = ropp (rmul eps eps)) by (unfold rsub; ring). rewrite Q' in Q.
          pose proof (n_anti N _ (n_nn_mul N _ _ Pe Pe) Q) as W. apply mul_zero in W as [W|W]; contradiction.
      + destruct K as (K1 & K2). split; [intros _; right; split; [exact Z|unfold le; congruence]|]. intros _. rewrite K1.
        assert (CV : forall y z i, in_range sh i = true -> comb y z v (apply sh M v) i = comb (radd y (rmul z (energy sh M v))) rz v v i) by (intros y z i Hi; unfold comb; rewrite EV by auto; ring).
        split; [rewrite (@sprod_ext N sh (dv U) (dv U) v v) by auto; exact Nv|]. split; [apply energy_ext; exact K2|]. split.
        * exists ro, rz. intros i Hi. rewrite K2 by auto. unfold comb. ring.
        * intros y z. rewrite (@energy_ext N sh M _ _ (CV y z)), (@sprod_ext N sh _ _ _ _ (CV y z) (CV y z)), energy_comb by exact HM. rewrite sprod_comb_l, !sprod_comb_r, Nv. unfold form2. rewrite conj0.
          match goal with |- le N ?a ?b => replace b with a by (unfold SpecLanczos.energy; ring) end. apply le_refl.
    - destruct (n_leb N (rmul eps eps) (sprod sh r r)) eqn:EL.
      + destruct (update_ok F s Ss HM Nv Pe Ze EL) as (Et & U & EU & SE & SU & K & _). exists Et, U. split; [exact EU|]. split; [exact SE|]. split; [exact SU|]. split; [intros _; left; exact EL|intros _; exact K].
      + destruct (@update_small Z) as (Et & U & EU & SE & SU & _ & K); [unfold le; congruence|exact H1|]. exists Et, U. split; [exact EU|]. split; [exact SE|]. split; [exact SU|]. split; [intros (Q & _); contradiction|].
        intros [Q|(Q & _)]; [unfold le in Q; congruence|contradiction].
  Qed.
End X.

(** The first spin of two is flipped with a coupling of half the threshold. *)
From Verif Require Import LanczosEx.
Section Weak.
  Variable N : numeric.
  Add Ring Rw : (ring_th N).
  Ltac red_ex := cbn; cbv beta iota delta [Nat.eqb andb negb].
  Lemma two_twice (x : N) : rmul (two N) x = radd x x. Proof. unfold two. ring. Qed.
  Variable c : N.
  Hypothesis Rc : rconj c = c.
  Definition ex_weak : dense N := mkD [1; 2; 2; 1; 2; 2] (fun i => if negb (nth 1 i 0 =? nth 4 i 0) && (nth 2 i 0 =? nth 5 i 0) then c else rz).
  Notation M := (heff (ex_env N) ex_weak (ex_env N)).
  Notation up := (ex_up N).
  Lemma weak_val i j : M i j = if negb (nth 1 i 0 =? nth 1 j 0) && (nth 2 i 0 =? nth 2 j 0) then c else rz.
  Proof. unfold heff. cbn [ex_env ex_weak dsh dv nth seq]. rewrite !sumf_cons, !sumf_nil. cbn [dv nth]. ring. Qed.
  Lemma weak_hermitian sh : hermitian_kernel sh M.
  Proof. intros i j _ _. rewrite !weak_val, (Nat.eqb_sym (nth 1 i 0)), (Nat.eqb_sym (nth 2 i 0)). destruct (_ && _); [exact Rc|apply conj0]. Qed.
  Lemma weak_energy : energy [1; 2; 2; 1] M (dv up) = rz.
  Proof. unfold energy, sprod, apply. cbn [idxs seq flat_map map app]. rewrite !sumf_cons, !sumf_nil, !weak_val. red_ex. rewrite ?conj1, ?conj0. ring. Qed.
  Lemma weak_residual : sprod [1; 2; 2; 1] (residual [1; 2; 2; 1] M (dv up)) (residual [1; 2; 2; 1] M (dv up)) = rmul c c.
  Proof.
    unfold sprod, residual. rewrite weak_energy. unfold apply. cbn [idxs seq flat_map map app]. rewrite !sumf_cons, !sumf_nil, !weak_val. red_ex. unfold rsub.
    rewrite ?rconj_add, ?rconj_mul, ?conj_opp, ?rconj_mul, ?conj1, ?conj0, ?Rc. ring.
  Qed.
  Lemma weak_update (eps : N) : le N rz eps -> eps <> rz -> le N (rmul eps eps) ro -> radd c c = eps ->
    sprod [1; 2; 2; 1] (residual [1; 2; 2; 1] M (dv up)) (residual [1; 2; 2; 1] M (dv up)) <> rz /\
    exists Et U, t_update eps up ex_weak (ex_env N) (ex_env N) = Ok (Et, U) /\ le N (sprod [1; 2; 2; 1] (dv U) (dv U)) ro /\ sprod [1; 2; 2; 1] (dv U) (dv U) <> ro.
  Proof.
    intros P Z H1 E. assert (C0 : rmul c c <> rz). { intros Q. apply Z. rewrite <- E. apply mul_zero in Q as [->| ->]; ring. }
    split; [rewrite weak_residual; exact C0|].
    destruct (@update_small N (ex_env N) ex_weak (ex_env N) 1 2 2 1) with (eps := eps) (s := up) as (Et & U & EU & _ & _ & K1 & K2); [exists 1, 1; repeat split|reflexivity|apply weak_hermitian|apply up_norm|exact P|exact Z|rewrite weak_residual; exact C0| |exact H1|exists Et, U; auto].
    rewrite weak_residual. intros Q. apply le_nn in Q. apply C0. assert (SQ : n_leb N rz (rmul c c) = true) by (pose proof (n_nn_sq N c) as S; rewrite Rc in S; exact S).
    assert (S2 : n_leb N rz (radd (rmul c c) (rmul c c)) = true) by (apply n_nn_add; exact SQ).
    apply nn_sum_zero with (radd (rmul c c) (rmul c c)); [exact SQ|exact S2|]. apply n_anti; [apply n_nn_add; assumption|].
    replace (ropp (radd (rmul c c) (radd (rmul c c) (rmul c c)))) with (rsub (rmul c c) (rmul eps eps)); [exact Q|]. rewrite <- E. unfold rsub. ring.
  Qed.
End Weak.
Lemma small_refuted (N : numeric) (eps : N) : le N rz eps -> eps <> rz -> le N (rmul eps eps) ro ->
  exists L H E s : dense N, fits L H E 1 2 2 1 /\ dsh s = [1; 2; 2; 1] /\ hermitian_kernel [1; 2; 2; 1] (heff L H E) /\ sprod [1; 2; 2; 1] (dv s) (dv s) = ro /\
    sprod [1; 2; 2; 1] (residual [1; 2; 2; 1] (heff L H E) (dv s)) (residual [1; 2; 2; 1] (heff L H E) (dv s)) <> rz /\
    exists Et U, t_update eps s H L E = Ok (Et, U) /\ sprod [1; 2; 2; 1] (dv U) (dv U) <> ro.
Proof.
  intros P Z H1. set (c := ndiv N eps (two N)). assert (E : radd c c = eps). { transitivity (rmul (two N) c); [symmetry; apply two_twice|apply div_mul, two_neq]. }
  assert (Rc : rconj c = c) by (apply n_nn_conj, nn_div; [exact P|apply n_nn_add; apply nn1|apply two_neq]).
  destruct (@weak_update N c Rc eps P Z H1 E) as (K1 & Et & U & EU & _ & K2). exists (ex_env N), (ex_weak N c), (ex_env N), (ex_up N). split; [exists 1, 1; repeat split|]. split; [reflexivity|]. split; [apply weak_hermitian, Rc|]. split; [apply up_norm|]. split; [exact K1|]. exists Et, U. auto.
Qed.
