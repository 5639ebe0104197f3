(** A chain of a spin, with the first Pauli matrix on it, and of a site of dimension one: values for the examples of C76. *)
From Verif Require Import Base Ring Index SpecIndex Dense IndexProofs BTensor BTensorArith Bcast Tensordot SpecTensordot Chain SpecChain ChainProofs ChainThms ChainInst ChainEnd
  SpecMove SpecSvd SvdDense SvdEx MoveOc MoveProofs MoveInst Truncate SpecTruncate TruncateProofs BSvd BTrunc Num Lanczos SpecLanczos LanczosVec LanczosProofs LanczosEx SiteUpdate SpecSiteUpdate ChainNorm ChainEnergy SiteUpdateProofs SiteUpdateThms SiteUpdateEx
  Dmrg DmrgProofs DmrgRun SpecDmrgRun DmrgRunProofs DmrgRunThms DmrgRunMain.
Set Implicit Arguments.

(** Decomposition of matrices of one column. *)
Section Col.
  Variable N : numeric.
  Add Ring Rr : (ring_th N).
  Notation t := (dense N).
  Notation nn x := (n_leb N rz x = true).
  Ltac red_ex := cbn; cbv beta iota delta [Nat.eqb andb negb].
  Notation sq M m := (sumf N (fun i => rmul (rconj (dv M [i; 0])) (dv M [i; 0])) (seq 0 m)).
  Definition ex_col (M : t) : t * t * t :=
    let m := nth 0 (dsh M) 0 in
    if leqb (dsh M) [m; 1] && (1 <=? m) then
      let n := n_sqrt N (sq M m) in
      (mkD [m; 1] (fun i => if reqb n rz then (if nth 0 i 0 =? 0 then ro else rz) else ndiv N (dv M [nth 0 i 0; 0]) n), mkD [1] (fun _ => n), d_id N 1)
    else one_sided M.
  Lemma sumsq_nn (f : nat -> N) l : nn (sumf N (fun i => rmul (rconj (f i)) (f i)) l).
  Proof. induction l as [|a l IH]; [apply nn0|]. rewrite sumf_cons. apply n_nn_add; [apply n_nn_sq|exact IH]. Qed.
  Lemma sumsq_zero (f : nat -> N) l i : sumf N (fun i => rmul (rconj (f i)) (f i)) l = rz -> In i l -> f i = rz.
  Proof.
    induction l as [|a l IH]; intros E H; [destruct H|]. rewrite sumf_cons in E. assert (Q : rmul (rconj (f a)) (f a) = rz) by (eapply nn_sum_zero; [apply n_nn_sq|apply sumsq_nn|exact E]).
    destruct H as [<- | H]; [apply sq_zero, Q|]. apply IH; [|exact H]. rewrite Q in E. rewrite <- E. ring.
  Qed.
  Lemma col_case M : (exists m, 1 <= m /\ dsh M = [m; 1] /\ ex_col M = (mkD [m; 1] (fun i => if reqb (n_sqrt N (sq M m)) rz then (if nth 0 i 0 =? 0 then ro else rz) else ndiv N (dv M [nth 0 i 0; 0]) (n_sqrt N (sq M m))), mkD [1] (fun _ => n_sqrt N (sq M m)), d_id N 1))
    \/ ex_col M = one_sided M.
  Proof.
    unfold ex_col. destruct (leqb (dsh M) [nth 0 (dsh M) 0; 1] && (1 <=? nth 0 (dsh M) 0)) eqn:C; [left|right; reflexivity]. apply andb_true_iff in C as [C1 C2]. apply leqb_eq in C1. apply Nat.leb_le in C2. eauto.
  Qed.
  Lemma col_thin M : (exists m n, dsh M = [m; n]) -> thin M (ex_col M) /\ real_entries (snd (fst (ex_col M))).
  Proof.
    intros HM. destruct (col_case M) as [(m & H1 & SM & ->) | ->].
    - set (n := n_sqrt N (sq M m)). assert (Nn : nn n) by (apply n_sqrt_nn, (sumsq_nn (fun i => dv M [i; 0]))). split.
      + intros m' n' E. rewrite SM in E. injection E as <- <-. rewrite Nat.min_r by exact H1. split; [reflexivity|]. split; [reflexivity|]. split; [reflexivity|]. intros i j Hi Hj. assert (j = 0) by lia. subst j. red_ex. rewrite conj1.
        destruct (reqb n rz) eqn:Q.
        * apply reqb_spec in Q. rewrite Q. replace (dv M [i; 0]) with (rz : N); [ring|]. symmetry. apply (@sumsq_zero (fun i => dv M [i; 0]) (seq 0 m) i); [|apply in_seq; lia]. rewrite <- (@n_sqrt_sq N (sq M m)) by apply (sumsq_nn (fun i => dv M [i; 0])). fold n. rewrite Q. ring.
        * assert (D : n <> rz) by (intros D; rewrite D in Q; rewrite (proj2 (reqb_spec N _ _) eq_refl) in Q; discriminate). rewrite <- (@div_mul N (dv M [i; 0]) n D) at 1. ring.
      + intros i _. apply n_nn_conj, Nn.
    - split; [apply one_sided_thin; exact HM|]. unfold one_sided. destruct (_ <=? _); intros i _; apply conj1.
  Qed.
  Lemma col_val M : (exists m n, dsh M = [m; n]) -> descending (snd (fst (ex_col M))).
  Proof.
    intros _. destruct (col_case M) as [(m & H1 & SM & ->) | ->]; cbn [fst snd].
    - split; intros; cbn; [apply n_sqrt_nn, (sumsq_nn (fun i => dv M [i; 0]))|apply le_refl].
    - unfold one_sided. destruct (_ <=? _); split; intros; cbn; first [apply nn1 | apply le_refl].
  Qed.
  Lemma col_iso M m : 1 <= m -> dsh M = [m; 1] -> isometries M (ex_col M).
  Proof.
    intros H1 SM. unfold ex_col. rewrite SM. cbn [nth]. rewrite leqb_refl, (proj2 (Nat.leb_le 1 m) H1). cbn [andb]. set (n := n_sqrt N (sq M m)). assert (Nn : nn n) by (apply n_sqrt_nn, (sumsq_nn (fun i => dv M [i; 0]))).
    intros m' n' E. rewrite SM in E. injection E as <- <-. rewrite Nat.min_r by exact H1.
    split; intros c c' Hc Hc'; assert (c = 0) by lia; assert (c' = 0) by lia; subst c c'; cbn [dv nth Nat.eqb]; [|red_ex; rewrite ?conj1; ring].
    destruct (reqb n rz) eqn:Q.
    - destruct m as [|m]; [lia|]. cbn [seq]. rewrite sumf_cons, sumf_zero; [cbn [Nat.eqb]; rewrite conj1; ring|]. intros i Hi. apply in_seq in Hi. destruct (Nat.eqb_spec i 0); [lia|]. rewrite conj0. ring.
    - assert (D : n <> rz) by (intros D; rewrite D in Q; rewrite (proj2 (reqb_spec N _ _) eq_refl) in Q; discriminate). assert (Cn : rconj n = n) by (apply n_nn_conj, Nn).
      apply (@mul_eq N (rmul n n)); [intros X; apply mul_zero in X as [X|X]; contradiction|]. rewrite <- sumf_mul_l. transitivity (sq M m); [|assert (Q2 : rmul n n = sq M m) by (apply n_sqrt_sq, (sumsq_nn (fun i => dv M [i; 0]))); rewrite Q2; change (0 =? 0) with true; cbv iota; ring].
      apply sumf_ext. intros i _. transitivity (rmul (rconj (rmul n (ndiv N (dv M [i; 0]) n))) (rmul n (ndiv N (dv M [i; 0]) n))); [rewrite rconj_mul, Cn; ring|]. rewrite !div_mul by exact D. reflexivity.
  Qed.
End Col.

Section Chain.
  Variable N : numeric.
  Add Ring Rr : (ring_th N).
  Notation t := (dense N).
  Notation idk := (fun k : nat => k).
  Notation nn x := (n_leb N rz x = true).
  Ltac red_ex := cbn; cbv beta iota delta [Nat.eqb andb negb].
  Notation l := (ex_env N).
  Notation sh := [1; 2; 1; 1].
  Definition ex_chain : list t := [ex_spin N; ex_site1 N].
  Definition ex_ham : list t := [ex_sx N; ex_op1 N].
  Definition M0 (i j : list nat) : N := if negb (nth 1 i 0 =? nth 1 j 0) then ro else rz.
  Definition P0 : list nat := [0; 0; 0; 0].
  Definition P1 : list nat := [0; 1; 0; 0].
  Lemma two_index i : in_range sh i = true -> i = P0 \/ i = P1.
  Proof.
    intros Hi. apply in_range4 in Hi as (i0 & i1 & i2 & i3 & -> & H0 & H1 & H2 & H3). assert (i0 = 0) by lia. assert (i2 = 0) by lia. assert (i3 = 0) by lia. subst. apply two_cases in H1 as [-> | ->]; auto.
  Qed.
  Lemma sum_two (f : list nat -> N) : sumf N f (idxs sh) = radd (f P0) (f P1).
  Proof. cbn [idxs seq flat_map map app]. rewrite !sumf_cons, !sumf_nil. unfold P0, P1. ring. Qed.
  Lemma ham2 : exists He, two_sites_hamil t_tdot t_perm (ex_sx N) (ex_op1 N) = Ok He /\ fits l He l 1 2 1 1 /\ forall i j, in_range sh i = true -> in_range sh j = true -> heff l He l i j = M0 i j.
  Proof.
    destruct (@hamil_ok N (ex_sx N) (ex_op1 N) 1 2 1 1 1 eq_refl eq_refl) as (He & E & S & V). exists He. split; [exact E|]. split; [exists 1, 1; auto|]. intros i j Hi Hj.
    unfold heff. cbn [ex_env dsh dv nth seq]. apply two_index in Hi, Hj. destruct Hi as [-> | ->], Hj as [-> | ->]; unfold P0, P1, M0; rewrite !sumf_cons, !sumf_nil, V by (rewrite S; reflexivity); red_ex; ring.
  Qed.
  Lemma app_two v : apply sh M0 v P0 = v P1 /\ apply sh M0 v P1 = v P0.
  Proof. unfold apply. rewrite !sum_two. unfold P0, P1, M0. red_ex. split; ring. Qed.
  Lemma energy_two v : radd (sprod sh v v) (energy sh M0 v) = rmul (rconj (radd (v P0) (v P1))) (radd (v P0) (v P1)).
  Proof. unfold energy, sprod. rewrite !sum_two. destruct (app_two v) as [-> ->]. rewrite rconj_add. ring. Qed.
  Lemma herm2 : hermitian_chain ex_ham l l [2; 1].
  Proof.
    intros x s x' y s' y' Hs Hs' Hx Hy Hx' Hy'. assert (x = 0) by (cbn in Hx; lia). assert (y = 0) by (cbn in Hy; lia). assert (x' = 0) by (cbn in Hx'; lia). assert (y' = 0) by (cbn in Hy'; lia). subst.
    destruct s as [|s1 [|s2 [|? ?]]]; try (cbn in Hs; rewrite ?andb_false_r in Hs; discriminate). destruct s' as [|s1' [|s2' [|? ?]]]; try (cbn in Hs'; rewrite ?andb_false_r in Hs'; discriminate).
    unfold operator. cbn. rewrite (Nat.eqb_sym s1' s1). destruct (s1 =? s1'); red_ex; repeat rewrite ?rconj_add, ?rconj_mul, ?conj0, ?conj1; ring.
  Qed.
  Lemma fit2 : mps_fit (@dsh N) idk ex_chain 1 1.
  Proof. exists 2, 1. split; [reflexivity|]. exists 1, 1. split; reflexivity. Qed.
  Lemma ofit2 : mpo_fit (@dsh N) idk ex_ham ex_chain ex_chain 1 1.
  Proof. exists 1, 2, 2. repeat split. exists 1, 1, 1. repeat split. Qed.
  Lemma canonical2 : canonical ex_chain 0.
  Proof.
    split; intros j A Hj; [lia|]. cbn in Hj. assert (j = 1) by lia. subst j. intros [= <-]. intros c c' Hc Hc'. cbn in Hc, Hc'. assert (c = 0) by lia. assert (c' = 0) by lia. subst. red_ex. rewrite conj1. ring.
  Qed.
  Lemma pair2 : pair_amp (ex_spin N) (ex_site1 N) P0 = ro /\ pair_amp (ex_spin N) (ex_site1 N) P1 = rz.
  Proof. unfold P0, P1. rewrite !(@pair_val N _ _ 1 1) by (reflexivity || lia). red_ex. split; ring. Qed.
  Lemma norm2_ : chain_norm ex_chain 1 1 = ro.
  Proof. unfold ex_chain. rewrite (@norm_pair N (ex_spin N) (ex_site1 N) 1 2 1 1 1 eq_refl eq_refl). unfold sprod. rewrite sum_two. destruct pair2 as [-> ->]. rewrite conj1, conj0. ring. Qed.

  (** A chain of these dimensions with norm one has energy minus one at least, and is an eigenvector if it has it. *)
  Section Two.
    Variables (b b' : t) (k : nat).
    Hypothesis Sb : dsh b = [1; 2; k]. Hypothesis Sb' : dsh b' = [k; 1; 1].
    Hypothesis Nb : chain_norm [b; b'] 1 1 = ro.
    Notation w := (pair_amp b b').
    Lemma energy2 : chain_energy ex_ham l l [b; b'] = energy sh M0 w.
    Proof.
      destruct ham2 as (He & EH & FT & VM). unfold chain_energy, ex_ham.
      transitivity (energy sh (heff l He l) w).
      - apply (@pair_energy N [] [] [] [] (ex_sx N) (ex_op1 N) l l 1 1 1 1 1 2 1 1 1 1 1) with k; reflexivity || assumption.
      - unfold energy. apply sprod_ext; [reflexivity|]. intros i Hi. apply (@apply_mat N sh _ _ VM). exact Hi.
    Qed.
    Lemma energy2_sq : radd ro (chain_energy ex_ham l l [b; b']) = rmul (rconj (radd (w P0) (w P1))) (radd (w P0) (w P1)).
    Proof. rewrite energy2, <- energy_two. f_equal. rewrite <- Nb. apply (@norm_pair N b b' 1 2 k 1 1 Sb Sb'). Qed.
    Lemma energy2_low : le N (ropp ro) (chain_energy ex_ham l l [b; b']).
    Proof. apply le_nn. replace (rsub _ (ropp ro)) with (radd ro (chain_energy ex_ham l l [b; b'])) by (unfold rsub; ring). rewrite energy2_sq. apply n_nn_sq. Qed.
    Lemma energy2_eigen : chain_energy ex_ham l l [b; b'] = ropp ro -> forall i, in_range sh i = true -> apply sh M0 w i = rmul (ropp ro) (w i).
    Proof.
      intros E i Hi. assert (Q : radd (w P0) (w P1) = rz) by (apply sq_zero; rewrite <- energy2_sq, E; ring). destruct (app_two w) as [A0 A1].
      apply two_index in Hi as [-> | ->]; rewrite ?A0, ?A1; [transitivity (radd (radd (w P0) (w P1)) (ropp (w P0))); [ring|]|transitivity (radd (radd (w P0) (w P1)) (ropp (w P1))); [ring|]]; rewrite Q; ring.
    Qed.
  End Two.
  Lemma local2 i j : in_range sh i = true -> in_range sh j = true -> local_matrix [] [] (ex_sx N) (ex_op1 N) [] [] l l i j = M0 i j.
  Proof.
    intros Hi Hj. destruct ham2 as (He & E & F & V). rewrite <- V by assumption. symmetry.
    apply (@heff_local N [] [] [] [] (ex_sx N) (ex_op1 N) l l 1 1 1 1 1 2 1 1 1 1 1); reflexivity || assumption.
  Qed.
  Lemma minus_one : n_leb N rz (ropp ro) = false.
  Proof. destruct (n_leb N rz (ropp ro)) eqn:Q; [|reflexivity]. exfalso. apply (n_one N). apply n_anti; [apply nn1|exact Q]. Qed.
End Chain.

Section Run.
  Variable N : numeric.
  Context {W : weights}.
  Add Ring Rr : (ring_th N).
  Notation t := (dense N).
  Notation l := (ex_env N).
  Notation sh := [1; 2; 1; 1].
  Variables (slack : nat) (eps e_init crit : N) (wt : N -> W) (thr : W) (mn mx : Z) (undef : t) (max_iter : nat).
  Hypothesis Hslack : 0 < slack.
  Hypothesis P : le N rz eps. Hypothesis Z : eps <> rz. Hypothesis O : le N eps ro.
  Hypothesis Hmn : (1 <= mn <= mx)%Z.
  Notation dsvd := (@ex_col N).
  Notation hs := (ex_ham N).
  Notation ch := (ex_chain N).

  Lemma eps_sq : le N (rmul eps eps) ro.
  Proof.
    apply le_nn in O. apply le_nn. replace (rsub ro (rmul eps eps)) with (radd (rsub ro eps) (rmul eps (rsub ro eps))) by (unfold rsub; ring). apply n_nn_add; [exact O|]. apply n_nn_mul; [exact P|exact O].
  Qed.
  Lemma at_two (b b' : t) pre a a' post hpre h h' hpost : at_pair 0 [b; b'] hs pre a a' post hpre h h' hpost -> pre = [] /\ a = b /\ a' = b' /\ post = [] /\ hpre = [] /\ h = ex_sx N /\ h' = ex_op1 N /\ hpost = [].
  Proof. intros (E1 & E2 & L1 & L2). destruct pre; [|discriminate]. destruct hpre; [|discriminate]. unfold ex_ham in E2. injection E1 as <- <- <-. injection E2 as <- <- <-. repeat split. Qed.
  Section Pair.
    Variables b b' : t.
    Hypothesis Sb : dsh b = [1; 2; 1]. Hypothesis Sb' : dsh b' = [1; 1; 1].
    Lemma good2 : good eps dsvd hs l l 0 [b; b'].
    Proof.
      split.
      - intros pre a a' post hpre h h' hpost Le Re He s E U M AT EL ER EH ES EU CM. apply at_two in AT as (-> & -> & -> & -> & -> & -> & -> & ->). injection EL as <-. injection ER as <-.
        destruct (ham2 N) as (He' & EH' & FT & VM). rewrite EH in EH'. injection EH' as <-.
        destruct (@merge_ok N b b' 1 2 1 1 1 Sb Sb') as (s' & Es' & Ss & Vs). rewrite ES in Es'. injection Es' as <-.
        destruct (@update_run N l He l 1 2 1 1 FT eps s Ss) as (psi & a0 & a1 & e & o & n & _ & _ & _ & _ & _ & Et & U' & EU' & _ & _ & SU & _).
        { intros i j Hi Hj. rewrite !VM by assumption. unfold M0. rewrite (Nat.eqb_sym (nth 1 i 0)). destruct (negb _); [apply conj1|apply conj0]. }
        rewrite EU in EU'. injection EU' as <- <-. apply col_iso with 2; [lia|]. destruct CM as [CM _]. rewrite SU in CM. exact CM.
      - intros k (pre & a & a' & post & E & L1 & ->). destruct pre; [|discriminate]. injection E as <- <- <-. unfold size. rewrite Sb, Sb'. cbn. lia.
    Qed.
    Lemma full2 : full_bond [b; b'] 0.
    Proof. intros k (pre & a & a' & post & E & L1 & ->). destruct pre; [|discriminate]. injection E as <- <- <-. exists b. split; [reflexivity|]. unfold size. rewrite Sb, Sb'. reflexivity. Qed.
    Lemma improve2 : improvable sh (M0 N) eps (pair_amp b b') -> improvable_at eps hs l l [b; b'] 0.
    Proof.
      intros I pre a a' post hpre h h' hpost AT. apply at_two in AT as (-> & -> & -> & -> & -> & -> & -> & ->). unfold size. rewrite Sb, Sb'. cbn [nth].
      apply improvable_ext with (M' := M0 N) (v' := pair_amp b b'); [intros; apply local2; assumption|reflexivity|exact I].
    Qed.
  End Pair.
  Lemma improve0 : improvable sh (M0 N) eps (pair_amp (ex_spin N) (ex_site1 N)).
  Proof.
    left. set (v := pair_amp _ _). destruct (pair2 N) as [V0 V1]. fold v in V0, V1. destruct (@app_two N v) as [A0 A1]. unfold sprod, residual, energy, sprod. rewrite !sum_two, A0, A1, V0, V1, conj0.
    replace (radd _ _) with (ro : N); [apply eps_sq|]. unfold rsub. rewrite !rconj_add, !conj_opp, !rconj_mul, !rconj_add, !rconj_mul, ?conj1, ?conj0. ring.
  Qed.
  (** The energy after the first update. *)
  Lemma first_energy fwd He E b b' : two_sites_hamil t_tdot t_perm (ex_sx N) (ex_op1 N) = Ok He ->
    t_site_update eps dsvd wt thr mn mx fwd (ex_spin N) (ex_site1 N) He l l = Some (Ok (E, b, b')) -> le N (dv E []) (ropp ro).
  Proof.
    intros EH EU. destruct (ham2 N) as (He' & EH' & FT & VM). rewrite EH in EH'. injection EH' as <-.
    destruct (@merge_ok N (ex_spin N) (ex_site1 N) 1 2 1 1 1 eq_refl eq_refl) as (s & Es & Ss & Vs). destruct (pair2 N) as [V0 V1]. rewrite <- Vs in V0, V1 by reflexivity.
    assert (AP : forall i, in_range sh i = true -> apply sh (heff l He l) (dv s) i = apply sh (M0 N) (dv s) i) by (intros; apply (@apply_mat N sh _ _ VM); assumption).
    destruct (@app_two N (dv s)) as [A0 A1].
    destruct (@update_ok N l He l 1 2 1 1 FT eps s Ss) as (Et & U & EU' & _ & _ & (_ & _ & _ & K) & _).
    { intros i j Hi Hj. rewrite !VM by assumption. unfold M0. rewrite (Nat.eqb_sym (nth 1 i 0)). destruct (negb _); [apply conj1|apply conj0]. }
    { unfold sprod. rewrite sum_two, V0, V1, conj1, conj0. ring. }
    { exact P. } { exact Z. }
    { unfold sprod, residual, energy, sprod. rewrite !sum_two, !AP, A0, A1, V0, V1, conj0 by reflexivity. replace (radd _ _) with (ro : N); [apply eps_sq|]. unfold rsub. rewrite !rconj_add, !conj_opp, !rconj_mul, !rconj_add, !rconj_mul, ?conj1, ?conj0. ring. }
    rewrite (@site_halves N W eps dsvd wt thr mn mx fwd _ _ He l l s Et U Es EU') in EU. destruct (d_svd_trunc _ _ _ _ _ U 2) as [[w| |]|]; cbn [obind] in EU; try discriminate. destruct (halves N fwd w) as [h| |]; cbn [rbind] in EU; try discriminate. injection EU as <- <- <-.
    specialize (K ro (ropp ro)). set (c := comb ro (ropp ro) (dv s) (apply sh (heff l He l) (dv s))) in K.
    assert (C0 : c P0 = ro) by (unfold c, comb; rewrite AP, A0, V0, V1 by reflexivity; ring). assert (C1 : c P1 = ropp ro) by (unfold c, comb; rewrite AP, A1, V0, V1 by reflexivity; ring).
    assert (EC : energy sh (heff l He l) c = energy sh (M0 N) c) by (unfold energy; apply sprod_ext; [reflexivity|]; intros; apply (@apply_mat N sh _ _ VM); assumption). rewrite EC in K.
    destruct (@app_two N c) as [B0 B1]. unfold energy, sprod in K. rewrite !sum_two, B0, B1, C0, C1, conj_opp, conj1 in K. apply le_nn in K. apply le_nn. apply nn_factor with (two N); [unfold two; apply n_nn_add; apply nn1|apply two_neq|].
    replace (rmul (two N) (rsub (ropp ro) (dv Et []))) with (rsub (radd (rmul ro (ropp ro)) (rmul (ropp ro) ro)) (rmul (dv Et []) (radd (rmul ro ro) (rmul (ropp ro) (ropp ro))))); [exact K|]. unfold two, rsub. ring.
  Qed.


  Notation ups hs2 := (t_updates eps dsvd wt thr mn mx hs hs2).
  Notation inv2 := (inv hs l l 1 1 1 1 [2; 1]).
  Definition state2 (k : nat) (s : dst t t) (Es : list t) : Prop :=
    inv2 0 s /\ exists b b', d_sites s = [b; b'] /\ dsh b = [1; 2; 1] /\ dsh b' = [1; 1; 1] /\ chain_norm [b; b'] 1 1 = ro /\
      (k = 0 /\ [b; b'] = ch \/ 1 <= k /\ chain_energy hs l l [b; b'] = ropp ro /\ exists Es' E, Es = Es' ++ [E] /\ dv E [] = ropp ro).
  Lemma state2_improve k s Es : state2 k s Es -> improvable_at eps hs l l (d_sites s) 0.
  Proof.
    intros (_ & b & b' & -> & Sb & Sb' & NB & H). apply improve2; auto. destruct H as [(_ & Q) | (_ & Q & _)]; [injection Q as -> ->; apply improve0|]. right. exists (ropp ro). split; [apply minus_one|]. apply energy2_eigen with 1; assumption.
  Qed.
  Lemma state2_good k s Es : state2 k s Es -> good eps dsvd hs l l 0 (d_sites s).
  Proof. intros (_ & b & b' & -> & Sb & Sb' & _). apply good2; assumption. Qed.
  (** The sites of a state of these dimensions, of norm one and with an isometry on the right. *)
  Lemma shapes2 s : inv2 0 s -> chain_norm (d_sites s) 1 1 = ro -> gauge 0 (d_sites s) -> exists b b', d_sites s = [b; b'] /\ dsh b = [1; 2; 1] /\ dsh b' = [1; 1; 1].
  Proof.
    intros (_ & _ & F & _ & PS & _) NB (_ & G). destruct (d_sites s) as [|b [|b' [|? ?]]]; try discriminate. exists b, b'. split; [reflexivity|]. unfold size in PS. destruct F as (p & k & Sb & p' & k' & Sb' & Ek). cbn in Ek. subst k'. cbn [map] in PS. rewrite Sb, Sb' in PS. injection PS as -> ->.
    assert (K : k = 1).
    { cbn [skipn Nat.add] in G. inversion G as [|A Al G1 _ EA]. subst A Al. destruct k as [|[|k]]; [exfalso|reflexivity|exfalso].
      - apply (n_one N). rewrite <- NB. rewrite (@norm_pair N b b' 1 2 0 1 1 Sb Sb'). apply sumf_zero. intros i Hi. apply idxs_In, in_range4 in Hi as (i0 & i1 & i2 & i3 & -> & H0 & H1 & H2 & H3). rewrite (@pair_val N b b' 0 1) by (unfold size; rewrite ?Sb, ?Sb'; reflexivity || exact H3). cbn. ring.
      - unfold right_isometry in G1. unfold size in G1. rewrite Sb' in G1. cbn [nth] in G1. pose proof (G1 0 0 ltac:(lia) ltac:(lia)) as Q0. pose proof (G1 1 1 ltac:(lia) ltac:(lia)) as Q1. pose proof (G1 0 1 ltac:(lia) ltac:(lia)) as Q2.
        cbn [seq] in Q0, Q1, Q2. rewrite !sumf_cons, !sumf_nil in Q0, Q1, Q2. change (0 =? 0) with true in Q0. change (1 =? 1) with true in Q1. change (0 =? 1) with false in Q2. cbv iota in Q0, Q1, Q2. set (u := dv b' [0; 0; 0]) in *. set (w := dv b' [1; 0; 0]) in *.
        assert (Z2 : rmul u (rconj w) = rz) by (rewrite <- Q2; ring).
        assert (U0 : u <> rz) by (intros Q; rewrite Q, conj0 in Q0; apply (n_one N); rewrite <- Q0; ring). assert (W0 : w <> rz) by (intros Q; rewrite Q, conj0 in Q1; apply (n_one N); rewrite <- Q1; ring).
        assert (CU : forall z : N, rconj z = rz -> z = rz) by (intros z Q; rewrite <- (rconj_conj N z), Q; apply conj0).
        apply mul_zero in Z2 as [Q|Q]; auto. }
    subst k. split; assumption.
  Qed.
  Lemma states2 env hs2 : compute_2sites_hamil t_tdot t_perm hs = Ok hs2 -> inv2 0 (mkDst ch env 0) ->
    forall k s st Es, ups hs2 k (mkDst ch env 0) 0 0 = Some (Ok (s, st, Es)) -> st = 0%Z /\ state2 k s Es.
  Proof.
    intros E2 I0. induction k as [|k IH]; intros s st Es U.
    - injection U as <- <- <-. split; [reflexivity|]. split; [exact I0|]. exists (ex_spin N), (ex_site1 N). cbn [d_sites]. repeat split; auto. apply norm2_.
    - apply snoc_inv in U as (s1 & st1 & l1 & E & U1 & UE & -> & ->). fold (t_updates eps dsvd wt thr mn mx hs hs2) in U1. destruct (IH _ _ _ U1) as (-> & S1). split; [reflexivity|].
      pose proof (state2_good S1) as G1. pose proof (state2_improve S1) as I1. destruct S1 as (I & b & b' & D1 & Sb & Sb' & NB & H).
      assert (DO : dir_ok hs 0 0 0) by (split; [reflexivity|]; split; [auto|]; cbn; lia). rewrite <- D1 in NB.
      destruct (@step_any N W eps dsvd wt thr mn mx (@col_thin N) (@col_val N) Hmn hs hs2 l l 1 1 1 1 [2; 1] eq_refl eq_refl E2 (@herm2 N) 0 s1 0 0 s E I DO G1) as (I2 & N2 & G2); [rewrite NB; apply n_one|exact UE|].
      destruct (@step_go N W eps dsvd wt thr mn mx P Z (@col_thin N) (@col_val N) Hmn hs hs2 l l 1 1 1 1 [2; 1] eq_refl eq_refl E2 (@herm2 N) 0 s1 0 0 I DO G1 NB I1) as (s' & E' & UE' & SE & EN). rewrite UE in UE'. injection UE' as <- <-.
      destruct (shapes2 I2 N2 G2) as (c & c' & D2 & Sc & Sc'). rewrite D2 in EN. destruct (EN (full2 Sc Sc')) as [EN1 EN2]. split; [exact I2|]. exists c, c'. split; [exact D2|]. split; [exact Sc|]. split; [exact Sc'|]. rewrite D2 in N2. split; [exact N2|]. right. split; [lia|].
      assert (LE : le N (dv E []) (ropp ro)).
      { destruct H as [(-> & Q) | (_ & Q & _)]; [|rewrite D1, Q in EN2; exact EN2]. injection Q as -> ->. injection U1 as <- <-.
        destruct (inv_parts (N := N) (W := W) eps dsvd wt (@col_thin N) (@col_val N) E2 I) as (a & a' & h & h' & y & r & kk & r' & y' & Le & Re & He & Es & Eh & L1 & L2 & LL & Na & Na' & Nh & Nh' & Sa & Sa' & NL & NR & NH & WL & WR & WH).
        injection Na as <-. injection Na' as <-. injection Nh as <-. injection Nh' as <-. injection WL as <-. injection WR as <-.
        cbn [d_env] in NL, NR. revert UE. unfold update_at. cbn [d_sites d_oc d_env]. change (zget ch 0) with (Ok (ex_spin N)). cbn [obind]. change (zget ch (0 + 1)) with (Ok (ex_site1 N)). cbn [obind]. change (zget hs2 0) with (zget hs2 (Z.of_nat 0)). rewrite (zget_nat _ _ NH). cbn [obind].
        change (zget env (0 - 1 + 1)) with (zget env (Z.of_nat 0)). rewrite (zget_nat _ _ NL). cbn [obind]. change (zget env (0 + 2 + 1)) with (zget env (Z.of_nat (0 + 3))). rewrite (zget_nat _ _ NR). cbn [obind].
        destruct (t_site_update _ _ _ _ _ _ _ _ _ _ _ _) as [[[[E1 d] d']| |]|] eqn:TU; cbn [obind]; try discriminate. intros EU. assert (QE : E1 = E).
        { assert (QB : forall A B (x : result A) (f : A -> result B) v, rbind x f = Ok v -> exists z, x = Ok z /\ f z = Ok v) by (intros A B [z| |] f v Q; try discriminate; eauto). injection EU as EU. apply QB in EU as (z1 & _ & EU). injection EU as _ <-. reflexivity. }
        subst E1. eapply first_energy; [exact WH|exact TU]. }
      assert (VE : dv E [] = ropp ro). { apply le_anti; [exact LE|]. rewrite <- EN1. apply energy2_low with 1; assumption. }
      split; [rewrite EN1; exact VE|]. exists l1, E. auto.
  Qed.
  Notation reach := (reached slack eps dsvd wt thr mn mx undef hs ch 0).
  Lemma reach2 k s Es : reach k s Es -> state2 k s Es.
  Proof.
    intros (env & hs2 & st & E1 & E2 & U). destruct (start_ok (N := N) (W := W) crit dsvd wt undef Hslack (@col_thin N) (@col_val N) (hs := hs) (sites := ch) (x := 1) (o := 1) (x' := 1) (o' := 1) (oc := 0) 1 ltac:(cbn; lia) ltac:(cbn; lia) (fit2 N) (ofit2 N) (@herm2 N) (@canonical2 N)) as (env' & hs2' & E1' & E2' & I). rewrite E1 in E1'. injection E1' as <-. rewrite E2 in E2'. injection E2' as <-.
    eapply states2; [exact E2|exact I|exact U].
  Qed.
  Lemma pos2 k s Es p : reach k s Es -> d_oc s = Z.of_nat p -> p = 0.
  Proof. intros R E. destruct (reach2 R) as ((Q & _) & _). lia. Qed.
  Lemma move2 k s Es A Mx : reach k s Es -> nth_error (d_sites s) 1 = Some A -> cut_matrix 1 A Mx -> isometries Mx (dsvd Mx).
  Proof. intros R NA CM. destruct (reach2 R) as (_ & b & b' & D & Sb & Sb' & _). rewrite D in NA. injection NA as <-. apply col_iso with 1; [lia|]. destruct CM as [CM _]. rewrite Sb' in CM. exact CM. Qed.
End Run.

Lemma nothing2 (N : numeric) (W : weights) (slack : nat) (eps e_init crit : N) (dsvd : dense N -> dense N * dense N * dense N) (wt : N -> W) (thr : W) (mn mx : Z) (undef : dense N) :
  0 < slack -> le N eps ro ->
  (forall M, (exists m n, dsh M = [m; n]) -> thin M (dsvd M) /\ real_entries (snd (fst (dsvd M)))) ->
  (forall M, (exists m n, dsh M = [m; n]) -> descending (snd (fst (dsvd M)))) ->
  exists hs sites, let l := @d_full N [1; 1; 1] ro in mps_fit (@dsh N) (fun k => k) sites 1 1 /\ mpo_fit (@dsh N) (fun k => k) hs sites sites 1 1 /\ canonical sites 0 /\ hermitian_chain hs l l (map (size 1) sites) /\ chain_norm sites 1 1 = ro /\
    exists E sites' c, t_dmrg slack eps e_init crit dsvd wt thr mn mx undef 0 hs sites 0 = Some (Ok (E, sites', c)) /\ dv E [] = e_init /\ chain_energy hs l l sites' = rz.
Proof.
  intros H1 H2 H3 HV. exists (ex_ham N), (ex_chain N). cbv zeta. split; [apply fit2|]. split; [apply ofit2|]. split; [apply canonical2|]. split; [apply herm2|]. split; [apply norm2_|].
  assert (Q : exists s' c, t_dmrg slack eps e_init crit dsvd wt thr mn mx undef 0 (ex_ham N) (ex_chain N) 0 = Some (Ok (mkD [] (fun _ => e_init), s', c)) /\
    chain_energy (ex_ham N) (ex_env N) (ex_env N) s' = chain_energy (ex_ham N) (ex_env N) (ex_env N) (ex_chain N)).
  { apply (@run_nothing N W slack eps e_init crit dsvd wt thr mn mx undef H1 H3 HV (ex_ham N) (ex_chain N) 1 1 1 1 0 0); try (cbn; lia); try apply fit2; try apply ofit2; try apply canonical2; try apply herm2; try apply norm2_; assumption. }
  destruct Q as (s' & c & E & V).
  exists (mkD [] (fun _ => e_init)), s', c. split; [exact E|]. split; [reflexivity|]. etransitivity; [exact V|].
  etransitivity; [apply (@energy2 N (ex_spin N) (ex_site1 N) 1 eq_refl eq_refl)|]. unfold energy, sprod. rewrite sum_two. destruct (@app_two N (pair_amp (ex_spin N) (ex_site1 N))) as [-> ->]. destruct (pair2 N) as [-> ->]. rewrite conj0, rmul_0_l, rmul_0_r. apply radd_0_l.
Qed.
