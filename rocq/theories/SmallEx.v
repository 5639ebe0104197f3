(** A pair whose residual is not zero and below the threshold: the update raises the energy. *)
From Verif Require Import Base Ring Index SpecIndex Dense IndexProofs BTensor BTensorArith Bcast Tensordot SpecTensordot Chain SpecChain ChainProofs ChainThms ChainInst ChainEnd
  SpecMove SpecSvd SvdDense SvdEx MoveOc MoveProofs MoveInst MoveEx Truncate SpecTruncate TruncateProofs BSvd BTrunc Num Eig2 SpecEig2 Eig2Proofs Lanczos SpecLanczos LanczosVec LanczosProofs LanczosEx SiteUpdate SpecSiteUpdate ChainNorm ChainEnergy SiteUpdateProofs SiteUpdateThms
  SiteUpdateEx SpecDmrgRun DmrgRunEx.
Set Implicit Arguments.

Section Small.
  Context {N : numeric} {W : weights}.
  Add Ring Rr : (ring_th N).
  Notation t := (dense N).
  Notation nn x := (n_leb N rz x = true).
  Ltac red_ex := cbn; cbv beta iota delta [Nat.eqb andb negb].
  Notation l := (ex_env N).
  Notation sh := [1; 2; 1; 1].
  Notation P0 := [0; 0; 0; 0]. Notation P1 := [0; 1; 0; 0].
  Definition pos (x : N) : Prop := nn x /\ x <> rz.
  Lemma pos_add a b : pos a -> nn b -> pos (radd a b).
  Proof. intros [A1 A2] B. split; [apply n_nn_add; assumption|]. intros Q. apply A2. apply nn_sum_zero with b; assumption. Qed.
  Lemma pos_mul a b : pos a -> pos b -> pos (rmul a b).
  Proof. intros [A1 A2] [B1 B2]. split; [apply n_nn_mul; assumption|]. intros Q. apply mul_zero in Q as [Q|Q]; contradiction. Qed.
  Lemma pos_one : pos ro. Proof. split; [apply nn1|apply n_one]. Qed.
  Definition three : N := radd (radd ro ro) ro.
  Variable dl : N.
  (** The matrix with rows (1, dl) and (dl, 3). *)
  Definition ex_near : t := mkD [1; 2; 1; 2] (fun i => if negb (nth 1 i 0 =? nth 3 i 0) then dl else if nth 1 i 0 =? 0 then ro else three).
  Definition MS (i j : list nat) : N := if negb (nth 1 i 0 =? nth 1 j 0) then dl else if nth 1 i 0 =? 0 then ro else three.
  Lemma near_hamil : exists He, two_sites_hamil t_tdot t_perm ex_near (ex_op1 N) = Ok He /\ fits l He l 1 2 1 1 /\ forall i j, in_range sh i = true -> in_range sh j = true -> heff l He l i j = MS i j.
  Proof.
    destruct (@hamil_ok N ex_near (ex_op1 N) 1 2 1 1 1 eq_refl eq_refl) as (He & E & S & V). exists He. split; [exact E|]. split; [exists 1, 1; auto|]. intros i j Hi Hj.
    unfold heff. cbn [ex_env dsh dv nth seq]. apply two_index in Hi, Hj. destruct Hi as [-> | ->], Hj as [-> | ->]; unfold DmrgRunEx.P0, DmrgRunEx.P1, MS; rewrite !sumf_cons, !sumf_nil, V by (rewrite S; reflexivity); red_ex; ring.
  Qed.
  Hypothesis Pd : pos dl.
  Hypothesis Hd : nn (rsub ro (radd (radd dl dl) (radd dl dl))).
  Lemma dconj : rconj dl = dl. Proof. apply n_nn_conj, Pd. Qed.
  Lemma tconj3 : rconj three = three. Proof. unfold three. rewrite !rconj_add, !conj1. reflexivity. Qed.
  Lemma MS_herm i j : rconj (MS i j) = MS j i.
  Proof.
    unfold MS. rewrite (Nat.eqb_sym (nth 1 j 0)). destruct (Nat.eqb_spec (nth 1 i 0) (nth 1 j 0)) as [Q|Q]; cbn [negb]; [|apply dconj]. rewrite Q. destruct (_ =? 0); [apply conj1|apply tconj3].
  Qed.
  Lemma near_herm : hermitian_chain [ex_near; ex_op1 N] l l [2; 1].
  Proof.
    intros x s x' y s' y' Hs Hs' Hx Hy Hx' Hy'. assert (x = 0) by (cbn in Hx; lia). assert (y = 0) by (cbn in Hy; lia). assert (x' = 0) by (cbn in Hx'; lia). assert (y' = 0) by (cbn in Hy'; lia). subst.
    destruct s as [|s1 [|s2 [|? ?]]]; try (cbn in Hs; rewrite ?andb_false_r in Hs; discriminate). destruct s' as [|s1' [|s2' [|? ?]]]; try (cbn in Hs'; rewrite ?andb_false_r in Hs'; discriminate).
    unfold operator. cbn. change (0 =? 0) with true. cbv iota. destruct (Nat.eqb_spec s1 s1') as [<-|Q1]; [rewrite Nat.eqb_refl; cbn [negb]; destruct (s1 =? 0)|rewrite (proj2 (Nat.eqb_neq s1' s1)) by auto; cbn [negb]]; repeat rewrite ?rconj_add, ?rconj_mul, ?conj0, ?conj1, ?tconj3, ?dconj; ring.
  Qed.
  Lemma app_near v : apply sh MS v P0 = radd (v P0) (rmul dl (v P1)) /\ apply sh MS v P1 = radd (rmul dl (v P0)) (rmul three (v P1)).
  Proof. unfold apply. rewrite !sum_two. unfold DmrgRunEx.P0, DmrgRunEx.P1, MS. red_ex. split; ring. Qed.
  Lemma energy_near v : energy sh MS v = radd (radd (rmul (rconj (v P0)) (v P0)) (rmul dl (radd (rmul (rconj (v P0)) (v P1)) (rmul (rconj (v P1)) (v P0))))) (rmul three (rmul (rconj (v P1)) (v P1))).
  Proof. unfold energy, sprod. rewrite sum_two. unfold DmrgRunEx.P0, DmrgRunEx.P1. destruct (app_near v) as [-> ->]. ring. Qed.
  Lemma chain_near (b b' : t) k : dsh b = [1; 2; k] -> dsh b' = [k; 1; 1] -> expectation [b; b'] [b; b'] [ex_near; ex_op1 N] l l = energy sh MS (pair_amp b b').
  Proof.
    intros Sb Sb'. destruct near_hamil as (He & EH & FT & VM). transitivity (energy sh (heff l He l) (pair_amp b b')).
    - apply (@pair_energy N [] [] [] [] ex_near (ex_op1 N) l l 1 1 1 1 1 2 1 1 1 1 1) with k; reflexivity || assumption.
    - apply energy_mat. exact VM.
  Qed.
  Notation a := (ex_spin N). Notation a' := (ex_site1 N).
  Lemma near_pair : pair_amp a a' P0 = ro /\ pair_amp a a' P1 = rz.
  Proof. rewrite !(@pair_val N _ _ 1 1) by (reflexivity || lia). red_ex. split; ring. Qed.
  Lemma near_local i j : in_range sh i = true -> in_range sh j = true -> local_matrix [] [] ex_near (ex_op1 N) [] [] l l i j = MS i j.
  Proof.
    intros Hi Hj. destruct near_hamil as (He & E & F & V). rewrite <- V by assumption. symmetry.
    apply (@heff_local N [] [] [] [] ex_near (ex_op1 N) l l 1 1 1 1 1 2 1 1 1 1 1); reflexivity || assumption.
  Qed.
  Lemma near_residual : residual sh (local_matrix [] [] ex_near (ex_op1 N) [] [] l l) (pair_amp a a') P1 = dl.
  Proof.
    rewrite (@residual_mat N sh _ _ near_local) by reflexivity. unfold residual. rewrite energy_near. destruct near_pair as [V0 V1]. destruct (app_near (pair_amp a a')) as [_ ->]. rewrite V0, V1, conj0, conj1. unfold rsub. ring.
  Qed.
  Variable eps : N.
  Hypothesis He_small : n_leb N eps dl = false.
  Lemma near_update He s : two_sites_hamil t_tdot t_perm ex_near (ex_op1 N) = Ok He -> dsh s = sh -> dv s P0 = ro -> dv s P1 = rz ->
    exists Et U e o n, t_update eps s He l l = Ok (Et, U) /\ dv Et [] = e /\ dsh U = sh /\ dv U P0 = o /\ dv U P1 = rmul n dl /\ n <> rz /\
      radd o (rmul dl n) = rmul e o /\ nn (rsub (rmul three (rmul dl dl)) e).
  Proof.
    intros EH Ss V0 V1. destruct near_hamil as (He' & EH' & FT & VM). rewrite EH in EH'. injection EH' as <-.
    destruct (@update_run N l He l 1 2 1 1 FT eps s Ss) as (psi & a0 & a1 & e & o & n & _ & (G1 & G2 & G3 & G4) & E0 & E1 & VP & Et & U & EU & _ & VE & SU & VU).
    { intros i j Hi Hj. rewrite !VM by assumption. apply MS_herm. }
    assert (A0 : a0 = ro). { rewrite E0, (@energy_mat N sh _ _ VM), energy_near, V0, V1, conj0, conj1. ring. }
    assert (R0 : forall i, in_range sh i = true -> residual sh (heff l He l) (dv s) i = if nth 1 i 0 =? 0 then rz else dl).
    { intros i Hi. rewrite (@residual_mat N sh _ _ VM) by exact Hi. unfold residual. rewrite energy_near, V0, V1, conj0, conj1. destruct (app_near (dv s)) as [B0 B1]. apply two_index in Hi as [-> | ->]; unfold DmrgRunEx.P0, DmrgRunEx.P1; rewrite ?B0, ?B1, V0, V1; red_ex; unfold rsub; ring. }
    set (b := n_sqrt N (sprod sh (residual sh (heff l He l) (dv s)) (residual sh (heff l He l) (dv s)))) in *.
    assert (RR : sprod sh (residual sh (heff l He l) (dv s)) (residual sh (heff l He l) (dv s)) = rmul dl dl).
    { rewrite (@sprod_ext N sh _ _ _ _ R0 R0). unfold sprod. rewrite sum_two. unfold DmrgRunEx.P0, DmrgRunEx.P1. red_ex. rewrite conj0, dconj. ring. }
    assert (QB : b = dl).
    { assert (NB : nn b) by (apply n_sqrt_nn, sprod_nn). assert (SB : rmul b b = rmul dl dl) by (unfold b; rewrite n_sqrt_sq by apply sprod_nn; exact RR).
      assert (Q : rmul (rsub b dl) (radd dl b) = rz). { transitivity (rsub (rmul b b) (rmul dl dl)); [unfold rsub; ring|]. rewrite SB. unfold rsub. ring. }
      apply mul_zero in Q as [Q|Q]; [transitivity (radd (rsub b dl) dl); [unfold rsub; ring|rewrite Q; ring]|]. destruct (@pos_add dl b Pd NB) as [_ C]. contradiction. }
    rewrite QB in *. rewrite He_small in VP. rewrite dconj in G2.
    assert (Q0 : psi P0 = rz) by (rewrite VP, R0 by reflexivity; reflexivity). assert (Q1 : psi P1 = dl) by (rewrite VP, R0 by reflexivity; reflexivity).
    assert (A1 : a1 = rmul three (rmul dl dl)). { rewrite E1, (@energy_mat N sh _ _ VM), energy_near, Q0, Q1, conj0, dconj. ring. }
    exists Et, U, e, o, n. split; [exact EU|]. split; [exact VE|]. split; [exact SU|]. split; [rewrite VU by reflexivity; unfold comb; rewrite V0, Q0; ring|]. split; [rewrite VU by reflexivity; unfold comb; rewrite V1, Q1; ring|].
    split; [|split].
    - intros Zn. rewrite Zn in G1, G3. assert (Q : rmul dl o = rz). { transitivity (rmul e rz); [rewrite <- G3; ring|ring]. } apply mul_zero in Q as [Q|Q]; [destruct Pd; contradiction|]. apply (n_one N). rewrite <- G1. unfold norm2. rewrite Q, conj0. ring.
    - rewrite <- G2, A0. ring.
    - specialize (G4 rz ro). apply le_nn in G4. unfold norm2, form2 in G4. rewrite A0, A1, conj0, conj1, dconj in G4. match type of G4 with n_leb N rz ?x = true => replace (rsub (rmul three (rmul dl dl)) e) with x; [exact G4|unfold rsub; ring] end.
  Qed.
  Variables (wt : N -> W) (thr : W) (mn mx : Z).
  Hypothesis Hmn : (1 <= mn <= mx)%Z.
  Theorem near_site fwd : exists He Et b b', two_sites_hamil t_tdot t_perm ex_near (ex_op1 N) = Ok He /\ t_site_update eps (@ex_col N) wt thr mn mx fwd a a' He l l = Some (Ok (Et, b, b')) /\
    dsh b = [1; 2; 1] /\ dsh b' = [1; 1; 1] /\ chain_norm [b; b'] 1 1 = ro /\
    le N (dv Et []) (expectation [a; a'] [a; a'] [ex_near; ex_op1 N] l l) /\ dv Et [] <> expectation [a; a'] [a; a'] [ex_near; ex_op1 N] l l /\
    le N (expectation [a; a'] [a; a'] [ex_near; ex_op1 N] l l) (expectation [b; b'] [b; b'] [ex_near; ex_op1 N] l l) /\ expectation [a; a'] [a; a'] [ex_near; ex_op1 N] l l <> expectation [b; b'] [b; b'] [ex_near; ex_op1 N] l l.
  Proof.
    destruct near_hamil as (He & EH & _). destruct (@merge_ok N a a' 1 2 1 1 1 eq_refl eq_refl) as (s & Es & Ss & Vs). destruct near_pair as [V0 V1].
    destruct (@near_update He s EH Ss) as (Et & U & e & o & n & EU & VE & SU & U0 & U1 & Zn & G2 & Ge); [rewrite Vs by reflexivity; exact V0|rewrite Vs by reflexivity; exact V1|].
    assert (IS : forall M, cut_matrix 2 U M -> isometries M (@ex_col N M)) by (intros M [CM _]; apply col_iso with 2; [lia|]; rewrite SU in CM; exact CM).
    destruct (@split_gen N W eps (@ex_col N) wt thr mn mx (@col_thin N) (@col_val N) Hmn 1 2 1 1 ltac:(cbn; lia) U SU IS fwd ltac:(cbn; lia)) as (k & w & sc & ET & Bk & _ & Ns & Sk & Z0 & HB). assert (k = 1) by (cbn in Bk; lia). subst k. specialize (Sk eq_refl).
    assert (Zs : sc <> rz).
    { intros Q. destruct (Z0 Q) as [_ Q0]. unfold sprod in Q0. rewrite sum_two in Q0. unfold DmrgRunEx.P0, DmrgRunEx.P1 in Q0. rewrite U0, U1 in Q0. assert (Q1 : rmul n dl = rz). { apply sq_zero. apply nn_sum_zero with (rmul (rconj o) o); [apply n_nn_sq|apply n_nn_sq|]. rewrite <- Q0. ring. } apply mul_zero in Q1 as [Q1|Q1]; [contradiction|destruct Pd; contradiction]. }
    destruct (HB Zs) as (b & b' & EB & Sb & Sb' & NB & _ & VB). specialize (VB eq_refl). exists He, Et, b, b'. split; [exact EH|].
    split; [rewrite (@site_halves N W eps (@ex_col N) wt thr mn mx fwd a a' He l l s Et U Es EU), ET; cbn [obind]; rewrite EB; reflexivity|]. split; [exact Sb|]. split; [exact Sb'|]. split; [rewrite (@norm_pair N b b' 1 2 1 1 1 Sb Sb'); exact NB|].
    rewrite (@chain_near a a' 1 eq_refl eq_refl), (@chain_near b b' 1 Sb Sb'). set (x := energy sh MS (pair_amp b b')).
    assert (OLD : energy sh MS (pair_amp a a') = ro) by (rewrite energy_near, V0, V1, conj0, conj1; ring). rewrite OLD, VE.
    assert (D3 : nn (radd (radd dl dl) dl)) by (repeat apply n_nn_add; apply Pd).
    assert (P3 : pos (radd (radd dl dl) dl)) by (repeat apply pos_add; apply Pd).
    assert (PD : pos (rsub ro dl)). { replace (rsub ro dl) with (radd (radd (radd dl dl) dl) (rsub ro (radd (radd dl dl) (radd dl dl)))) by (unfold rsub; ring). apply pos_add; assumption. }
    assert (PG : pos (rsub (rsub ro e) dl)).
    { replace (rsub (rsub ro e) dl) with (radd (radd (rmul (radd (radd dl dl) dl) (rsub ro dl)) (rsub ro (radd (radd dl dl) (radd dl dl)))) (rsub (rmul three (rmul dl dl)) e)) by (unfold rsub, three; ring). apply pos_add; [apply pos_add; [apply pos_mul; assumption|exact Hd]|exact Ge]. }
    assert (PF : pos (rsub ro e)). { replace (rsub ro e) with (radd (rsub (rsub ro e) dl) dl) by (unfold rsub; ring). apply pos_add; [exact PG|apply Pd]. }
    split; [apply le_nn; apply PF|]. split; [intros Q; apply PF; rewrite Q; unfold rsub; ring|].
    assert (CE : rconj e = e). { assert (Q : rconj (rsub ro e) = rsub ro e) by (apply n_nn_conj, PF). unfold rsub in Q. rewrite rconj_add, conj_opp, conj1 in Q. transitivity (rsub ro (radd ro (ropp (rconj e)))); [unfold rsub; ring|]. rewrite Q. unfold rsub. ring. }
    assert (R1 : rmul (rsub ro e) o = ropp (rmul dl n)). { transitivity (rsub (rsub (radd o (rmul dl n)) (rmul e o)) (rmul dl n)); [unfold rsub; ring|]. rewrite G2. unfold rsub. ring. }
    assert (R2 : rmul (rsub ro e) (rconj o) = ropp (rmul dl (rconj n))). { transitivity (rconj (rmul (rsub ro e) o)); [unfold rsub; rewrite rconj_mul, rconj_add, conj_opp, conj1, CE; ring|]. rewrite R1, conj_opp, rconj_mul, dconj. reflexivity. }
    assert (CS : rconj sc = sc) by (apply n_nn_conj, Ns).
    assert (SX : rmul (rmul sc sc) x = energy sh MS (dv U)).
    { unfold x. rewrite !energy_near, <- !VB by reflexivity. rewrite !rconj_mul, CS. ring. }
    assert (SS : rmul sc sc = radd (rmul (rconj o) o) (rmul (rmul dl dl) (rmul (rconj n) n))). { rewrite Sk. unfold sprod. rewrite sum_two. unfold DmrgRunEx.P0, DmrgRunEx.P1. rewrite U0, U1, rconj_mul, dconj. ring. }
    assert (KEY : rmul (rmul (rsub ro e) (rmul sc sc)) (rsub x ro) = rmul (rmul (radd ro ro) (rmul (rmul dl dl) (rmul (rconj n) n))) (rsub (rsub ro e) dl)).
    { transitivity (rmul (rsub ro e) (rsub (rmul (rmul sc sc) x) (rmul sc sc))); [unfold rsub; ring|]. rewrite SX, SS, energy_near, U0, U1, rconj_mul, dconj.
      transitivity (rmul (rmul dl dl) (radd (radd (rmul (rmul (rsub ro e) (rconj o)) n) (rmul (rconj n) (rmul (rsub ro e) o))) (rmul (rsub ro e) (rmul (radd ro ro) (rmul (rconj n) n))))); [unfold rsub, three; ring|]. rewrite R1, R2. unfold rsub. ring. }
    assert (PS : pos (rmul (rsub ro e) (rmul sc sc))) by (apply pos_mul; [exact PF|apply pos_mul; split; assumption]).
    assert (PR : pos (rmul (rmul (radd ro ro) (rmul (rmul dl dl) (rmul (rconj n) n))) (rsub (rsub ro e) dl))).
    { apply pos_mul; [|exact PG]. apply pos_mul; [apply pos_add; [apply pos_one|apply nn1]|]. apply pos_mul; [apply pos_mul; exact Pd|]. split; [apply n_nn_sq|]. intros Q. apply Zn, sq_zero. exact Q. }
    rewrite <- KEY in PR. destruct PR as [PR1 PR2]. split.
    - apply le_nn. apply nn_factor with (rmul (rsub ro e) (rmul sc sc)); [apply PS|apply PS|exact PR1].
    - intros Q. apply PR2. rewrite <- Q. unfold rsub. ring.
  Qed.
End Small.

Section Refuted.
  Context {N : numeric} {W : weights}.
  Add Ring Rq : (ring_th N).
  Variable eps : N.
  Hypothesis eps_pos : le N rz eps.
  Hypothesis eps_nz : eps <> rz.
  Hypothesis eps_half : le N (radd eps eps) ro.
  Definition half : N := ndiv N eps (two N).
  Lemma half_two : radd half half = eps.
  Proof. transitivity (rmul (two N) half); [unfold two; ring|]. apply div_mul, two_neq. Qed.
  Lemma half_pos : pos half.
  Proof.
    split.
    - apply nn_factor with (two N); [unfold two; apply n_nn_add; apply nn1|apply two_neq|]. replace (rmul (two N) half) with eps; [exact eps_pos|]. rewrite <- half_two. unfold two. ring.
    - intros Q. apply eps_nz. rewrite <- half_two, Q. ring.
  Qed.
  Lemma half_small : n_leb N eps half = false.
  Proof.
    destruct (n_leb N eps half) eqn:Q; [|reflexivity]. exfalso. destruct half_pos as [P Z]. apply Z. apply n_anti; [exact P|]. apply le_nn in Q. replace (ropp half) with (rsub half eps); [exact Q|]. rewrite <- half_two. unfold rsub. ring.
  Qed.
  Lemma small_refuted (wt : N -> W) (thr : W) (mn mx : Z) (forward : bool) : (1 <= mn <= mx)%Z ->
    exists h h' a a' He Et b b', let l := ex_env N in two_sites_hamil t_tdot t_perm h h' = Ok He /\ mps_fit (@dsh N) (fun k => k) [a; a'] 1 1 /\ mpo_fit (@dsh N) (fun k => k) [h; h'] [a; a'] [a; a'] 1 1 /\
      hermitian_chain [h; h'] l l (map (size 1) [a; a']) /\ chain_norm [a; a'] 1 1 = ro /\
      dsh a = [1; 2; 1] /\ dsh a' = [1; 1; 1] /\ residual [1; 2; 1; 1] (local_matrix [] [] h h' [] [] l l) (pair_amp a a') [0; 1; 0; 0] <> rz /\
      (forall s Et U M, merge t_tdot a a' = Ok s -> t_update eps s He l l = Ok (Et, U) -> cut_matrix 2 U M -> isometries M (@ex_col N M)) /\
      t_site_update eps (@ex_col N) wt thr mn mx forward a a' He l l = Some (Ok (Et, b, b')) /\ dsh b = [1; 2; 1] /\ dsh b' = [1; 1; 1] /\ chain_norm [b; b'] 1 1 = ro /\
      let old := expectation [a; a'] [a; a'] [h; h'] l l in let new := expectation [b; b'] [b; b'] [h; h'] l l in
      le N (dv Et []) old /\ dv Et [] <> old /\ le N old new /\ old <> new.
  Proof.
    intros Hmn. pose proof half_pos as P. assert (H4 : n_leb N rz (rsub ro (radd (radd half half) (radd half half))) = true) by (rewrite half_two; exact (proj1 (le_nn _ _ _) eps_half)).
    destruct (@near_site N W half P H4 eps half_small wt thr mn mx Hmn forward) as (He & Et & b & b' & EH & E & Sb & Sb' & NB & R1 & R2 & R3 & R4).
    exists (ex_near half), (ex_op1 N), (ex_spin N), (ex_site1 N), He, Et, b, b'. cbv zeta. split; [exact EH|]. split; [apply fit2|]. split; [exists 1, 2, 2; repeat split; exists 1, 1, 1; repeat split|].
    split; [apply near_herm; exact P|]. split; [apply norm2_|]. split; [reflexivity|]. split; [reflexivity|]. split; [rewrite near_residual; apply P|]. split; [|auto 10].
    intros s Et' U M Es EU CM. destruct (@merge_ok N (ex_spin N) (ex_site1 N) 1 2 1 1 1 eq_refl eq_refl) as (s' & Es' & Ss & Vs). rewrite Es in Es'. injection Es' as <-. pose proof (pair2 N) as [V0 V1]; unfold P0, P1 in V0, V1.
    rewrite <- Vs in V0, V1 by reflexivity. pose proof (@near_update N half P eps half_small He s EH Ss V0 V1) as (Et2 & U2 & e & o & n & EU2 & _ & SU & _).
    rewrite EU in EU2. injection EU2 as _ <-. destruct CM as [CM _]. rewrite SU in CM. apply col_iso with 2; [lia|exact CM].
  Qed.
End Refuted.
