(** Two spins with the first Pauli matrix on the first of them: values for the example of C75. *)
From Verif Require Import Base Ring Index SpecIndex Dense IndexProofs BTensor BTensorArith Bcast Tensordot SpecTensordot Chain SpecChain ChainProofs ChainThms ChainInst ChainEnd
  SpecMove SpecSvd SvdDense SvdEx MoveOc MoveProofs MoveInst Truncate SpecTruncate TruncateProofs BSvd BTrunc Num Lanczos SpecLanczos LanczosVec LanczosProofs LanczosEx SiteUpdate SpecSiteUpdate ChainNorm ChainEnergy SiteUpdateProofs SiteUpdateThms.
Set Implicit Arguments.

Section Ex.
  Variable N : numeric.
  Add Ring Rr : (ring_th N).
  Notation t := (dense N).
  Notation idk := (fun k : nat => k).
  Ltac red_ex := cbn; cbv beta iota delta [Nat.eqb andb negb].
  Definition ex_spin : t := mkD [1; 2; 1] (fun i => if nth 1 i 0 =? 0 then ro else rz).
  Definition ex_sx : t := mkD [1; 2; 1; 2] (fun i => if negb (nth 1 i 0 =? nth 3 i 0) then ro else rz).
  Definition ex_id : t := mkD [1; 2; 1; 2] (fun i => if nth 1 i 0 =? nth 3 i 0 then ro else rz).
  (** A decomposition that is right for matrices of two rows and columns whose second column is zero and first has norm one. *)
  Definition ex_svd (M : t) : t * t * t :=
    if leqb (dsh M) [2; 2] && reqb (dv M [0; 1]) rz && reqb (dv M [1; 1]) rz then
      (mkD [2; 2] (fun i => if nth 1 i 0 =? 0 then dv M [nth 0 i 0; 0] else if nth 0 i 0 =? 0 then ropp (rconj (dv M [1; 0])) else rconj (dv M [0; 0])),
       mkD [2] (fun i => if nth 0 i 0 =? 0 then ro else rz), d_id N 2)
    else one_sided M.
  Lemma two_cases i : i < 2 -> i = 0 \/ i = 1. Proof. lia. Qed.
  Lemma ex_svd_thin M : (exists m n, dsh M = [m; n]) -> thin M (ex_svd M) /\ real_entries (snd (fst (ex_svd M))).
  Proof.
    intros HM. unfold ex_svd. destruct (leqb (dsh M) [2; 2] && _ && _) eqn:C.
    - rewrite !andb_true_iff in C. destruct C as [[C1 C2] C3]. apply leqb_eq in C1. apply reqb_spec in C2, C3. split.
      + intros m n E. rewrite C1 in E. injection E as <- <-. split; [reflexivity|]. split; [reflexivity|]. split; [reflexivity|].
        intros i j Hi Hj. change (Nat.min 2 2) with 2. apply two_cases in Hi, Hj. destruct Hi as [-> | ->], Hj as [-> | ->]; red_ex; rewrite ?C2, ?C3, ?conj0, ?conj1; ring.
      + intros i Hi. cbn [fst snd dsh dv]. destruct (nth 0 i 0 =? 0); [apply conj1|apply conj0].
    - split; [apply one_sided_thin; exact HM|]. unfold one_sided. destruct (_ <=? _); intros i _; apply conj1.
  Qed.
  Lemma ex_svd_val M : (exists m n, dsh M = [m; n]) -> descending (snd (fst (ex_svd M))).
  Proof.
    intros _. unfold ex_svd. destruct (leqb (dsh M) [2; 2] && _ && _); cbn [fst snd].
    - split; intros c; [intros Hc; cbn in Hc; apply two_cases in Hc as [-> | ->]; [apply nn1|apply nn0]|].
      intros c' H1 H2. cbn in H2. apply two_cases in H2 as [-> | ->]; [assert (c = 0) by lia; subst; apply le_refl|]. assert (c = 0 \/ c = 1) as [-> | ->] by lia; [|apply le_refl]. red_ex. unfold le. rewrite n_le_sub. replace (rsub ro rz : N) with (ro : N) by (unfold rsub; ring). apply nn1.
    - unfold one_sided. destruct (_ <=? _); split; intros; cbn; first [apply nn1 | apply le_refl].
  Qed.
  Notation sh := [1; 2; 2; 1].
  Lemma ex_svd_iso (A M : t) : dsh A = sh -> sprod sh (dv A) (dv A) = ro -> dv A [0; 0; 1; 0] = rz -> dv A [0; 1; 1; 0] = rz -> cut_matrix 2 A M -> isometries M (ex_svd M).
  Proof.
    intros SA NA Z0 Z1 [SM VM]. rewrite SA in SM, VM. cbn in SM.
    assert (V : forall i j, i < 2 -> j < 2 -> dv M [i; j] = dv A [0; i; j; 0]).
    { intros i j Hi Hj. specialize (VM [0; i] [j; 0]). apply two_cases in Hi as [-> | ->]; apply two_cases in Hj as [-> | ->]; apply VM; reflexivity. }
    unfold ex_svd. rewrite SM, !V, Z0, Z1 by lia. assert (Q : reqb rz (rz : N) = true) by (apply reqb_spec; reflexivity). rewrite Q. change (leqb [2; 2] [2; 2]) with true. cbn [andb].
    intros m n E. rewrite SM in E. injection E as <- <-. change (Nat.min 2 2) with 2.
    unfold sprod in NA. cbn in NA. rewrite Z0, Z1, !rmul_0_r in NA.
    assert (N1 : radd (rmul (rconj (dv A [0; 0; 0; 0])) (dv A [0; 0; 0; 0])) (rmul (rconj (dv A [0; 1; 0; 0])) (dv A [0; 1; 0; 0])) = ro) by (rewrite <- NA; ring).
    split; intros c c' Hc Hc'; apply two_cases in Hc, Hc'; destruct Hc as [-> | ->], Hc' as [-> | ->]; red_ex; rewrite ?V by lia; rewrite ?conj_opp, ?rconj_conj, ?conj0, ?conj1; try ring; rewrite <- N1; ring.
  Qed.
  Lemma flip_combination (v : list nat -> N) x y i : (forall a b, v [a; b; 1; 0] = rz) -> comb x y v (apply sh (heff (ex_env N) (ex_flip N) (ex_env N)) v) [0; i; 1; 0] = rz.
  Proof.
    intros Z. unfold comb, apply. cbn [idxs seq flat_map map app]. rewrite !sumf_cons, !sumf_nil, !flip_val, !Z. cbn [nth]. rewrite !andb_false_r. ring.
  Qed.

  Notation l := (ex_env N).
  Notation M0 := (heff l (ex_flip N) l).
  Lemma ex_hamil : exists He, two_sites_hamil t_tdot t_perm ex_sx ex_id = Ok He /\ fits l He l 1 2 2 1 /\ forall i j, in_range sh i = true -> in_range sh j = true -> heff l He l i j = M0 i j.
  Proof.
    destruct (@hamil_ok N ex_sx ex_id 1 2 1 2 1 eq_refl eq_refl) as (He & E & S & V). exists He. split; [exact E|]. split; [exists 1, 1; auto|]. intros i j Hi Hj. rewrite flip_val.
    apply in_range4 in Hi as (i0 & i1 & i2 & i3 & -> & H0 & H1 & H2 & H3). apply in_range4 in Hj as (j0 & j1 & j2 & j3 & -> & G0 & G1 & G2 & G3).
    unfold heff. cbn [ex_env dsh dv nth seq]. rewrite !sumf_cons, !sumf_nil, V by (rewrite S; cbn [in_range]; rewrite !andb_true_iff, !Nat.ltb_lt; repeat split; lia).
    cbn. destruct (i1 =? j1), (i2 =? j2); red_ex; ring.
  Qed.
  Lemma ex_pair i : in_range sh i = true -> pair_amp ex_spin ex_spin i = dv (ex_up N) i.
  Proof.
    intros Hi. apply in_range4 in Hi as (i0 & i1 & i2 & i3 & -> & H0 & H1 & H2 & H3). rewrite (@pair_val N _ _ 1 1) by (reflexivity || exact H3). cbn. destruct (i1 =? 0), (i2 =? 0); red_ex; ring.
  Qed.
  Lemma ex_local i j : in_range sh i = true -> in_range sh j = true -> local_matrix [] [] ex_sx ex_id [] [] l l i j = M0 i j.
  Proof.
    intros Hi Hj. destruct ex_hamil as (He & E & F & V). rewrite <- V by assumption. symmetry.
    apply (@heff_local N [] [] [] [] ex_sx ex_id l l 1 1 1 1 1 2 2 1 1 1 1); reflexivity || assumption.
  Qed.
  Lemma ex_herm : hermitian_chain [ex_sx; ex_id] l l [2; 2].
  Proof.
    intros x s x' y s' y' Hs Hs' Hx Hy Hx' Hy'. assert (x = 0) by (cbn in Hx; lia). assert (y = 0) by (cbn in Hy; lia). assert (x' = 0) by (cbn in Hx'; lia). assert (y' = 0) by (cbn in Hy'; lia). subst.
    destruct s as [|s1 [|s2 [|? ?]]]; try (cbn in Hs; rewrite ?andb_false_r in Hs; discriminate). destruct s' as [|s1' [|s2' [|? ?]]]; try (cbn in Hs'; rewrite ?andb_false_r in Hs'; discriminate).
    unfold operator. cbn. rewrite (Nat.eqb_sym s1' s1), (Nat.eqb_sym s2' s2). destruct (s1 =? s1'), (s2 =? s2'); red_ex; repeat rewrite ?rconj_add, ?rconj_mul, ?conj0, ?conj1; ring.
  Qed.
  Lemma ex_norm : chain_norm [ex_spin; ex_spin] 1 1 = ro.
  Proof. rewrite (@norm_pair N ex_spin ex_spin 1 2 1 2 1 eq_refl eq_refl), <- up_norm. apply sprod_ext; exact ex_pair. Qed.
  Variable eps : N.
  Hypothesis P : le N rz eps. Hypothesis Z : eps <> rz. Hypothesis O : le N (rmul eps eps) ro.
  Lemma ex_improvable : improvable sh (local_matrix [] [] ex_sx ex_id [] [] l l) eps (pair_amp ex_spin ex_spin).
  Proof.
    apply improvable_ext with (M' := M0) (v' := dv (ex_up N)); [exact ex_local|intros; symmetry; apply ex_pair; assumption|]. left. rewrite up_residual. exact O.
  Qed.
  Lemma ex_update_iso He s Et U M : two_sites_hamil t_tdot t_perm ex_sx ex_id = Ok He -> merge t_tdot ex_spin ex_spin = Ok s -> t_update eps s He l l = Ok (Et, U) -> cut_matrix 2 U M -> isometries M (ex_svd M).
  Proof.
    intros EH Es EU CM. destruct ex_hamil as (He' & EH' & FT & VM). rewrite EH in EH'. injection EH' as <-.
    destruct (@merge_ok N ex_spin ex_spin 1 2 1 2 1 eq_refl eq_refl) as (s' & Es' & Ss & Vs). rewrite Es in Es'. injection Es' as <-.
    assert (Vu : forall i, in_range sh i = true -> dv s i = dv (ex_up N) i) by (intros; rewrite Vs, ex_pair by assumption; reflexivity).
    destruct (@update_ok N l He l 1 2 2 1 FT eps s Ss) as (Et' & U' & EU' & _ & SU & (K1 & _ & (x & y & K3) & _) & _).
    - intros i j Hi Hj. rewrite !VM by assumption. apply flip_hermitian with sh; assumption.
    - rewrite <- up_norm. apply sprod_ext; exact Vu.
    - exact P.
    - exact Z.
    - assert (Q : forall i, in_range sh i = true -> residual sh (heff l He l) (dv s) i = residual sh M0 (dv (ex_up N)) i).
      { intros i Hi. rewrite (@residual_mat N sh _ _ VM) by exact Hi. unfold residual. rewrite (@apply_ext N sh M0 _ _ i Vu), (@energy_ext N sh M0 _ _ Vu), Vu by exact Hi. reflexivity. }
      rewrite (@sprod_ext N sh _ _ _ _ Q Q), up_residual. exact O.
    - rewrite EU in EU'. injection EU' as <- <-.
      assert (C : forall i, in_range sh i = true -> dv U i = comb x y (dv (ex_up N)) (apply sh M0 (dv (ex_up N))) i).
      { intros i Hi. rewrite K3 by exact Hi. unfold comb. rewrite (@apply_mat N sh _ _ VM), (@apply_ext N sh M0 _ _ i Vu), Vu by exact Hi. reflexivity. }
      apply ex_svd_iso with U; auto; rewrite C by reflexivity; apply flip_combination; intros a b; cbn; rewrite andb_false_r; reflexivity.
  Qed.
End Ex.

(** Sites of dimension one and an operator of energy one: the state is an eigenvector. *)
Section Nan.
  Variable N : numeric.
  Add Ring Rr : (ring_th N).
  Notation t := (dense N).
  Ltac red_ex := cbn; cbv beta iota delta [Nat.eqb andb negb].
  Definition ex_site1 : t := mkD [1; 1; 1] (fun _ => ro).
  Definition ex_op1 : t := mkD [1; 1; 1; 1] (fun _ => ro).
  Notation sh := [1; 1; 1; 1].
  Notation l := (ex_env N).
  Lemma one_index i : in_range sh i = true -> i = [0; 0; 0; 0].
  Proof. intros Hi. apply in_range4 in Hi as (i0 & i1 & i2 & i3 & -> & H0 & H1 & H2 & H3). repeat f_equal; lia. Qed.
  Lemma nan_herm : hermitian_chain [ex_op1; ex_op1] l l [1; 1].
  Proof.
    intros x s x' y s' y' Hs Hs' Hx Hy Hx' Hy'. assert (x = 0) by (cbn in Hx; lia). assert (y = 0) by (cbn in Hy; lia). assert (x' = 0) by (cbn in Hx'; lia). assert (y' = 0) by (cbn in Hy'; lia). subst.
    destruct s as [|s1 [|s2 [|? ?]]]; try (cbn in Hs; rewrite ?andb_false_r in Hs; discriminate). destruct s' as [|s1' [|s2' [|? ?]]]; try (cbn in Hs'; rewrite ?andb_false_r in Hs'; discriminate).
    unfold operator. red_ex. repeat rewrite ?rconj_add, ?rconj_mul, ?conj0, ?conj1. ring.
  Qed.
  Lemma nan_pair i : in_range sh i = true -> pair_amp ex_site1 ex_site1 i = ro.
  Proof. intros Hi. rewrite (@one_index i Hi), (@pair_val N _ _ 1 1) by (reflexivity || lia). red_ex. ring. Qed.
  Lemma nan_norm : chain_norm [ex_site1; ex_site1] 1 1 = ro.
  Proof. rewrite (@norm_pair N ex_site1 ex_site1 1 1 1 1 1 eq_refl eq_refl). unfold sprod. cbn [idxs seq flat_map map app]. rewrite !sumf_cons, !sumf_nil, nan_pair by reflexivity. rewrite conj1. ring. Qed.
  Lemma nan_fit : mps_fit (@dsh N) (fun k => k) [ex_site1; ex_site1] 1 1.
  Proof. exists 1, 1. split; [reflexivity|]. exists 1, 1. split; reflexivity. Qed.
  Lemma nan_ofit : mpo_fit (@dsh N) (fun k => k) [ex_op1; ex_op1] [ex_site1; ex_site1] [ex_site1; ex_site1] 1 1.
  Proof. exists 1, 1, 1. repeat split. exists 1, 1, 1. repeat split. Qed.
  (** Decomposition of matrices of one element. *)
  Definition ex_svd1 (M : t) : t * t * t :=
    if leqb (dsh M) [1; 1] then
      let z := dv M [0; 0] in (mkD [1; 1] (fun _ => if reqb z rz then ro else ndiv N z (nabs z)), mkD [1] (fun _ => nabs z), d_id N 1)
    else one_sided M.
  Lemma nabs_sq (z : N) : rmul (nabs z) (nabs z) = rmul (rconj z) z.
  Proof. apply n_sqrt_sq, n_nn_sq. Qed.
  Lemma nabs_neq (z : N) : z <> rz -> nabs z <> rz.
  Proof. intros D Q. apply D, sq_zero. rewrite <- nabs_sq, Q. ring. Qed.
  Lemma svd1_ok : (forall M, (exists m n, dsh M = [m; n]) -> thin M (ex_svd1 M) /\ real_entries (snd (fst (ex_svd1 M)))) /\ (forall M, dsh M = [1; 1] -> isometries M (ex_svd1 M)).
  Proof.
    split.
    - intros M HM. unfold ex_svd1. destruct (leqb (dsh M) [1; 1]) eqn:C.
      + apply leqb_eq in C. split.
        * intros m n E. rewrite C in E. injection E as <- <-. split; [reflexivity|]. split; [reflexivity|]. split; [reflexivity|]. intros i j Hi Hj. assert (i = 0) by lia. assert (j = 0) by lia. subst. change (Nat.min 1 1) with 1. red_ex. rewrite conj1.
          destruct (reqb (dv M [0; 0]) rz) eqn:Q.
          -- apply reqb_spec in Q. rewrite Q. assert (A : nabs (rz : N) = rz) by (apply nabs_nn, nn0). rewrite A. ring.
          -- assert (D : dv M [0; 0] <> rz) by (intros D; rewrite D in Q; rewrite (proj2 (reqb_spec N _ _) eq_refl) in Q; discriminate). rewrite <- (@div_mul N (dv M [0; 0]) (nabs (dv M [0; 0])) (@nabs_neq _ D)) at 1. ring.
        * intros i _. apply n_nn_conj, n_sqrt_nn, n_nn_sq.
      + split; [apply one_sided_thin; exact HM|]. unfold one_sided. destruct (_ <=? _); intros i _; apply conj1.
    - intros M SM. unfold ex_svd1. rewrite SM. change (leqb [1; 1] [1; 1]) with true. cbv iota. intros m n E. rewrite SM in E. injection E as <- <-. change (Nat.min 1 1) with 1.
      split; intros c c' Hc Hc'; assert (c = 0) by lia; assert (c' = 0) by lia; subst; red_ex; rewrite ?conj1; [|ring].
      destruct (reqb (dv M [0; 0]) rz) eqn:Q; [rewrite conj1; ring|]. set (z := dv M [0; 0]) in *. assert (D : z <> rz) by (intros D; rewrite D in Q; rewrite (proj2 (reqb_spec N _ _) eq_refl) in Q; discriminate).
      set (w := nabs z). assert (Zw : w <> rz) by (apply nabs_neq, D). assert (Cw : rconj w = w) by (apply n_nn_conj, n_sqrt_nn, n_nn_sq).
      apply (@mul_eq N (rmul w w)); [intros X; apply mul_zero in X as [X|X]; contradiction|].
      transitivity (rmul (rconj (rmul w (ndiv N z w))) (rmul w (ndiv N z w))); [rewrite rconj_mul, Cw; ring|]. rewrite !div_mul by exact Zw. unfold w. rewrite nabs_sq. ring.
  Qed.
  Lemma nan_oracle : exists dsvd : t -> t * t * t, (forall M, (exists m n, dsh M = [m; n]) -> thin M (dsvd M) /\ real_entries (snd (fst (dsvd M)))) /\ (forall M, dsh M = [1; 1] -> isometries M (dsvd M)).
  Proof. exists ex_svd1. exact svd1_ok. Qed.
  Variables (W : weights) (eps : N) (dsvd : t -> t * t * t) (wt : N -> W) (thr : W) (mn mx : Z).
  Hypothesis P : le N rz eps. Hypothesis Z : eps <> rz.
  Hypothesis H_thin : forall M, (exists m n, dsh M = [m; n]) -> thin M (dsvd M) /\ real_entries (snd (fst (dsvd M))).
  Hypothesis Hmn : (1 <= mn <= mx)%Z.
  Hypothesis H_iso : forall M, dsh M = [1; 1] -> isometries M (dsvd M).
  Lemma nan_update fwd : exists He, two_sites_hamil t_tdot t_perm ex_op1 ex_op1 = Ok He /\ t_site_update eps dsvd wt thr mn mx fwd ex_site1 ex_site1 He l l = Some UB.
  Proof.
    destruct (@hamil_ok N ex_op1 ex_op1 1 1 1 1 1 eq_refl eq_refl) as (He & E & S & V). exists He. split; [exact E|].
    destruct (@merge_ok N ex_site1 ex_site1 1 1 1 1 1 eq_refl eq_refl) as (s & Es & Ss & Vs).
    assert (FT : fits l He l 1 1 1 1) by (exists 1, 1; auto).
    assert (VM : forall i j, in_range sh i = true -> in_range sh j = true -> heff l He l i j = ro).
    { intros i j Hi Hj. rewrite (@one_index i Hi), (@one_index j Hj). unfold heff. cbn [ex_env dsh dv nth seq]. rewrite !sumf_cons, !sumf_nil, V by (rewrite S; reflexivity). red_ex. ring. }
    assert (V1 : forall i, in_range sh i = true -> dv s i = ro) by (intros; rewrite Vs, nan_pair by assumption; reflexivity).
    assert (AP : forall i, in_range sh i = true -> apply sh (heff l He l) (dv s) i = rmul ro (dv s i)).
    { intros i Hi. unfold apply. cbn [idxs seq flat_map map app]. rewrite !sumf_cons, !sumf_nil, VM, (V1 i), V1 by (assumption || reflexivity). ring. }
    destruct (@update_eigen N l He l 1 1 1 1 FT eps s Ss) with (lam := @ro N) as (Et & U & EU & _ & SU & K); auto.
    { intros i j Hi Hj. rewrite !VM by assumption. apply conj1. }
    { unfold sprod. cbn [idxs seq flat_map map app]. rewrite !sumf_cons, !sumf_nil, V1 by reflexivity. rewrite conj1. ring. }
    rewrite nn1 in K. destruct K as [_ KU].
    unfold t_site_update, site_update. rewrite Es. cbn [obind]. rewrite EU. cbn [obind fst snd].
    destruct (@svd4 N 1 1 1 1 dsvd H_thin U SU) as (M & u & d & v & CM & ES & Ed & TF & RE & ISO).
    assert (SM : dsh M = [1; 1]). { destruct CM as [C _]. rewrite SU in C. exact C. }
    destruct (ISO (@H_iso M SM)) as (OU & OV). pose proof (@factors_schmidt N 1 1 1 1 U u d v TF) as VA. destruct TF as (Su & Sd & Sv & _).
    assert (D0 : dv d [0] = rz).
    { apply sq_zero. assert (R0 : rconj (dv d [0]) = dv d [0]) by (apply RE; rewrite Sd; reflexivity). rewrite R0.
      assert (Q := @schmidt_norm N 1 1 1 1 1 u (fun c => dv d [c]) v OU OV). cbn [seq] in Q. rewrite sumf_cons, sumf_nil in Q. transitivity (radd (rmul (dv d [0]) (dv d [0])) rz); [ring|]. rewrite <- Q.
      - apply sumf_zero. intros i Hi. apply idxs_In in Hi. assert (VA' := VA i Hi). change (Nat.min (1 * 1) (1 * 1)) with 1 in VA'. rewrite <- VA', KU by exact Hi. ring.
      - intros c Hc. assert (c = 0) by lia. subst c. exact R0. }
    destruct (@trunc_ok N W wt thr mn mx Hmn u d v [1; 1] [1; 1] 1 Su Sd Sv (le_n 1)) as (k & ET & Bk & _); [lia|]. assert (k = 1) by lia. subst k.
    unfold d_svd_trunc. rewrite ES. cbn [obind]. rewrite ET. cbn [obind]. unfold t_unit_norm, t_div_. rewrite item_scalar by reflexivity. cbn [rbind d_map d_sum d_square dv dsh].
    assert (S0 : n_sqrt N (sumf N (fun i => rmul (dv d i) (dv d i)) (idxs [1])) = rz).
    { cbn [idxs seq flat_map map app]. rewrite sumf_cons, sumf_nil, D0. replace (radd (rmul rz rz) rz : N) with (rz : N) by ring. assert (Q := n_sqrt_sq N rz (nn0 N)). apply mul_zero in Q. destruct Q; assumption. }
    rewrite S0. assert (Q : reqb rz (rz : N) = true) by (apply reqb_spec; reflexivity). rewrite Q. reflexivity.
  Qed.
  Lemma nan_all fwd : exists a h l He, mps_fit (@dsh N) (fun k => k) [a; a] 1 1 /\ mpo_fit (@dsh N) (fun k => k) [h; h] [a; a] [a; a] 1 1 /\ hermitian_chain [h; h] l l [1; 1] /\
    chain_norm [a; a] 1 1 = ro /\ two_sites_hamil t_tdot t_perm h h = Ok He /\ t_site_update eps dsvd wt thr mn mx fwd a a He l l = Some UB.
  Proof.
    destruct (nan_update fwd) as (He & E1 & E2). exists ex_site1, ex_op1, l, He. split; [apply nan_fit|]. split; [apply nan_ofit|]. split; [apply nan_herm|]. split; [apply nan_norm|]. auto.
  Qed.
End Nan.
