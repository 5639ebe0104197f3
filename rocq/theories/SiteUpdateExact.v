(** Exactly which pairs of sites the update of a chain gets through. *)
From Verif Require Import Base Ring Index SpecIndex Dense IndexProofs BTensor BTensorArith Bcast Tensordot SpecTensordot Chain SpecChain ChainProofs ChainThms ChainInst ChainEnd
  SpecMove SpecSvd SvdDense MoveOc MoveProofs MoveInst Truncate SpecTruncate TruncateProofs BSvd BTrunc Num Eig2 SpecEig2 Eig2Proofs Lanczos SpecLanczos LanczosVec LanczosProofs LanczosExact SiteUpdate SpecSiteUpdate ChainNorm ChainEnergy SiteUpdateProofs SiteUpdateThms.
Set Implicit Arguments.

Section V.
  Variable N : numeric.
  Add Ring Rr : (ring_th N).
  Notation t := (dense N).
  Notation nn x := (n_leb N rz x = true).
  Lemma stuck_ext (sh : list nat) (M M' : list nat -> list nat -> N) v v' : (forall i j, in_range sh i = true -> in_range sh j = true -> M i j = M' i j) -> (forall i, in_range sh i = true -> v' i = v i) -> stuck sh M' v' -> stuck sh M v.
  Proof.
    intros HM E (lam & Hl & H). exists lam. split; [exact Hl|]. intros i Hi. rewrite (@apply_mat N sh M M' HM) by exact Hi. rewrite <- (@apply_ext N sh M' v' v i E), H, E by exact Hi. reflexivity.
  Qed.
  (** The new vector is zero for exactly the eigenvectors whose energy is not negative. *)
  Lemma update_zero (L H E : t) x p p' x' eps s : fits L H E x p p' x' -> dsh s = [x; p; p'; x'] -> hermitian_kernel [x; p; p'; x'] (heff L H E) -> sprod [x; p; p'; x'] (dv s) (dv s) = ro ->
    le N rz eps -> eps <> rz ->
    exists Et U, t_update eps s H L E = Ok (Et, U) /\ dsh U = [x; p; p'; x'] /\ (sprod [x; p; p'; x'] (dv U) (dv U) = rz <-> stuck [x; p; p'; x'] (heff L H E) (dv s)).
  Proof.
    intros F S HM Nv P Z. set (sh := [x; p; p'; x']) in *. set (M := heff L H E) in *. set (v := dv s) in *. set (r := residual sh M v).
    assert (EL : forall lam, (forall i, in_range sh i = true -> apply sh M v i = rmul lam (v i)) -> energy sh M v = lam).
    { intros lam HE. unfold energy. transitivity (rmul lam (sprod sh v v)); [|rewrite Nv; ring]. unfold sprod. rewrite <- sumf_mul_l. apply sumf_ext. intros i Hi. apply idxs_In in Hi. rewrite HE by exact Hi. ring. }
    destruct (eq_dec N (sprod sh r r) rz) as [ZR|ZR].
    - assert (RZ : forall i, in_range sh i = true -> r i = rz).
      { intros i Hi. apply sq_zero. pose proof (@sum_zero_each N _ (fun i => rmul (rconj (r i)) (r i)) (idxs sh)) as K. apply K; [intros; apply n_nn_sq|exact ZR|apply idxs_In; exact Hi]. }
      assert (EV : forall i, in_range sh i = true -> apply sh M v i = rmul (energy sh M v) (v i)).
      { intros i Hi. transitivity (radd (r i) (rmul (energy sh M v) (v i))); [unfold r, residual, rsub; ring|rewrite RZ by auto; ring]. }
      destruct (@update_eigen N L H E x p p' x' F eps s S HM Nv P Z _ EV) as (Et & U & EU & _ & SU & K). exists Et, U. split; [exact EU|]. split; [exact SU|].
      destruct (n_leb N rz (energy sh M v)) eqn:Q; destruct K as (_ & K).
      + split; [intros _; exists (energy sh M v); split; [exact Q|exact EV]|]. intros _. apply sumf_zero. intros i Hi. apply idxs_In in Hi. rewrite K by exact Hi. ring.
      + split.
        * intros W. exfalso. apply (n_one N). rewrite <- Nv, <- W. symmetry. apply sprod_ext; exact K.
        * intros (lam & Hl & HE). exfalso. rewrite (EL lam HE) in Q. unfold le in Hl. congruence.
    - assert (NS : ~ stuck sh M v).
      { intros (lam & Hl & HE). apply ZR. apply sumf_zero. intros i Hi. apply idxs_In in Hi. assert (Q : r i = rz) by (unfold r, residual; rewrite HE, (EL lam HE) by exact Hi; unfold rsub; ring). rewrite Q. ring. }
      destruct (n_leb N (rmul eps eps) (sprod sh r r)) eqn:Q.
      + destruct (@update_ok N L H E x p p' x' F eps s S HM Nv P Z Q) as (Et & U & EU & _ & SU & (K & _) & _). exists Et, U. split; [exact EU|]. split; [exact SU|].
        split; [intros W; exfalso; apply (n_one N); rewrite <- K; exact W|contradiction].
      + destruct (@update_run N L H E x p p' x' F eps s S HM) as (psi & a0 & a1 & e & o & n & _ & (G1 & _) & _ & _ & VP & Et & U & EU & _ & _ & SU & VU). exists Et, U. split; [exact EU|]. split; [exact SU|]. split; [|contradiction].
        assert (PR : forall i, in_range sh i = true -> psi i = r i).
        { intros i Hi. rewrite VP by exact Hi. rewrite (@eps_b N L H E x p p' x' eps s P) by (intros W; change (n_leb N (rmul eps eps) (sprod sh r r) = true) in W; congruence). reflexivity. }
        intros W. exfalso. rewrite (@sprod_ext N sh (dv U) (dv U) (comb o n v r) (comb o n v r)) in W by (intros i Hi; rewrite VU by auto; unfold comb; rewrite PR by auto; reflexivity).
        assert (NU : sprod sh (comb o n v r) (comb o n v r) = radd (rmul (rconj o) o) (rmul (rmul (rconj n) n) (sprod sh r r))).
        { rewrite sprod_comb_l, !sprod_comb_r, Nv, <- (@sprod_conj N sh v r). unfold r at 1 2. rewrite (@residual_orth N sh M v Nv), conj0. ring. }
        rewrite NU in W. assert (O0 : rmul (rconj o) o = rz) by (apply nn_sum_zero with (2 := n_nn_mul N _ _ (n_nn_sq N n) (sprod_nn N sh r)); [apply n_nn_sq|exact W]).
        assert (W' : rmul (rmul (rconj n) n) (sprod sh r r) = rz) by (rewrite <- W, O0; ring). apply mul_zero in W' as [N0|N0]; [|contradiction].
        apply (n_one N). rewrite <- G1. unfold norm2. transitivity (radd (rmul (rconj o) o) (rmul (rconj n) n)); [reflexivity|rewrite O0, N0; ring].
  Qed.
End V.

Section U.
  Variable N : numeric.
  Add Ring Ru : (ring_th N).
  Notation t := (dense N).
  Notation idk := (fun k : nat => k).
  Notation fit := (mps_fit (@dsh N) idk).
  Notation ofit := (mpo_fit (@dsh N) idk).
  Notation sizes := (map (@size N 1)).
  Notation nn x := (n_leb N rz x = true).
  Context {W : weights}.
  Variable eps : N.
  Variable dsvd : t -> t * t * t.
  Variable wt : N -> W.
  Variable thr : W.
  Variables mn mx : Z.
  Hypothesis Peps : le N rz eps.
  Hypothesis Zeps : eps <> rz.
  Hypothesis H_thin : forall M, (exists m n, dsh M = [m; n]) -> thin M (dsvd M) /\ real_entries (snd (fst (dsvd M))).
  Hypothesis H_val : forall M, (exists m n, dsh M = [m; n]) -> descending (snd (fst (dsvd M))).
  Hypothesis Hmn : (1 <= mn <= mx)%Z.

  Lemma split_zero y p p' y' (A : t) (fwd : bool) : (Z.of_nat (Nat.min (y * p) (p' * y')) <= 2 ^ 63)%Z -> dsh A = [y; p; p'; y'] -> (forall M, cut_matrix 2 A M -> isometries M (dsvd M)) ->
    1 <= Nat.min (y * p) (p' * y') -> sprod [y; p; p'; y'] (dv A) (dv A) = rz ->
    exists w, d_svd_trunc dsvd wt thr mn mx A 2 = Some (Ok w) /\ halves N fwd w = UB.
  Proof.
    intros HK SA IA K1 ZA. set (K := Nat.min (y * p) (p' * y')) in *.
    destruct (@svd4 N y p p' y' dsvd H_thin A SA) as (M & U & d & V & CM & ES & Ed & TF & RE & ISO). destruct (ISO (@IA M CM)) as (OU & OV). pose proof (@factors_schmidt N y p p' y' A U d V TF) as VA.
    destruct TF as (SU & Sd & SV & _). fold K in SU, Sd, SV, OU, OV, VA.
    assert (Rd : forall c, c < K -> rconj (dv d [c]) = dv d [c]). { intros c Hc. apply RE. rewrite Sd. cbn [in_range]. rewrite (proj2 (Nat.ltb_lt _ _)) by exact Hc. reflexivity. }
    assert (NS : sumf N (fun c => rmul (dv d [c]) (dv d [c])) (seq 0 K) = rz). { rewrite <- ZA. symmetry. rewrite <- (@schmidt_norm N y p p' y' K U (fun c => dv d [c]) V OU OV Rd). apply sprod_ext; exact VA. }
    assert (D0 : forall c, c < K -> dv d [c] = rz).
    { intros c Hc. apply sq_zero. rewrite (Rd c Hc). assert (E : sumf N (fun c => rmul (rconj (dv d [c])) (dv d [c])) (seq 0 K) = rz) by (rewrite <- NS; apply sumf_ext; intros c' Hc'; apply in_seq in Hc'; rewrite Rd by lia; reflexivity).
      pose proof (@sum_zero_each N _ (fun c => rmul (rconj (dv d [c])) (dv d [c])) (seq 0 K) (fun c => n_nn_sq N _) E c) as Q. cbv beta in Q. rewrite Rd in Q by exact Hc. apply Q, in_seq. lia. }
    destruct (@trunc_ok N W wt thr mn mx Hmn U d V [y; p] [p'; y'] K SU Sd SV K1 HK) as (k & ET & Bk & _).
    eexists. split; [unfold d_svd_trunc; rewrite ES; exact ET|]. unfold halves, t_unit_norm, t_div_. rewrite item_scalar by reflexivity. cbn [rbind].
    match goal with |- context [reqb ?a rz] => assert (Q : a = rz) end.
    { cbn [d_map d_sum d_square dv dsh]. rewrite sum_idxs1. assert (Q : sumf N (fun i => rmul (dv d [i]) (dv d [i])) (seq 0 k) = rz) by (apply sumf_zero; intros c Hc; apply in_seq in Hc; rewrite D0 by lia; ring).
      cbn [nth]. etransitivity; [apply f_equal; exact Q|]. apply root_unique; [apply n_sqrt_nn, nn0|apply nn0|]. rewrite n_sqrt_sq by apply nn0. ring. }
    rewrite (proj2 (reqb_spec N _ _) Q). reflexivity.
  Qed.

  Theorem site_update_exact (fwd : bool) pre a a' post hpre h h' hpost (l e : t) x o x' o' y p k p' y' Le He Re :
    dsh l = [x; o; x] -> dsh e = [x'; o'; x'] -> length hpre = length pre -> fit (pre ++ [a; a'] ++ post) x x' -> ofit (hpre ++ [h; h'] ++ hpost) (pre ++ [a; a'] ++ post) (pre ++ [a; a'] ++ post) o o' ->
    dsh a = [y; p; k] -> dsh a' = [k; p'; y'] ->
    left_envs t_tdot t_conj hpre pre l = Ok Le -> right_envs t_tdot t_conj hpost post e = Ok Re -> two_sites_hamil t_tdot t_perm h h' = Ok He ->
    Forall (@left_isometry N) pre -> Forall (@right_isometry N) post -> hermitian_chain (hpre ++ [h; h'] ++ hpost) l e (sizes (pre ++ [a; a'] ++ post)) ->
    chain_norm (pre ++ [a; a'] ++ post) x x' = ro ->
    (Z.of_nat (Nat.min (y * p) (p' * y')) <= 2 ^ 63)%Z ->
    (forall s Et U M, merge t_tdot a a' = Ok s -> t_update eps s He Le Re = Ok (Et, U) -> cut_matrix 2 U M -> isometries M (dsvd M)) ->
    (stuck [y; p; p'; y'] (local_matrix pre hpre h h' post hpost l e) (pair_amp a a') -> t_site_update eps dsvd wt thr mn mx fwd a a' He Le Re = Some UB) /\
    (~ stuck [y; p; p'; y'] (local_matrix pre hpre h h' post hpost l e) (pair_amp a a') ->
     exists Et b b' k', t_site_update eps dsvd wt thr mn mx fwd a a' He Le Re = Some (Ok (Et, b, b')) /\ dsh b = [y; p; k'] /\ dsh b' = [k'; p'; y'] /\
      fit (pre ++ [b; b'] ++ post) x x' /\ chain_norm (pre ++ [b; b'] ++ post) x x' = ro /\ (if fwd then left_isometry b else right_isometry b') /\
      1 <= k' <= Nat.min (y * p) (p' * y') /\ (Z.min mn (Z.of_nat (Nat.min (y * p) (p' * y'))) <= Z.of_nat k' <= mx)%Z).
  Proof.
    intros Sl Se HLn F O Sa Sa' HL HR HH IL IR HC HN HK HS. pose proof HN as HN0. destruct (@chain_parts N W eps dsvd wt H_thin H_val pre a a' post hpre h h' hpost x o x' o' y p k p' y' HLn F O Sa Sa') as (Fl & Fr & q & r & q' & Ol & Or & Sh & Sh').
    pose proof HC as HC0. rewrite (@chain_sizes N pre post y p p' y' a a' k Sa Sa') in HC.
    pose proof (@env_fits N pre post hpre hpost h h' l e x o x' o' y p p' y' q r q' Sl Se Fl Fr Ol Or Sh Sh' Le He Re HL HR HH) as FT.
    pose proof (@heff_hermitian N pre post hpre hpost h h' l e x o x' o' y p p' y' q r q' Sl Se Fl Fr Ol Or Sh Sh' Le He Re HL HR HH HC) as HM.
    pose proof (@heff_local N pre post hpre hpost h h' l e x o x' o' y p p' y' q r q' Sl Se Fl Fr Ol Or Sh Sh' Le He Re HL HR HH) as HLM.
    destruct (@merge_ok N a a' y p k p' y' Sa Sa') as (s & Es & Ss & Vs).
    rewrite (@norm_centre N pre a a' post x y p k p' y' x' Fl Sa Sa' Fr IL IR) in HN.
    assert (Ns : sprod [y; p; p'; y'] (dv s) (dv s) = ro) by (rewrite <- HN; apply sprod_ext; exact Vs).
    destruct (@update_zero N Le He Re y p p' y' eps s FT Ss HM Ns Peps Zeps) as (Et & U & EU & SU & ZU).
    assert (K1 : 1 <= Nat.min (y * p) (p' * y')).
    { destruct (Nat.eq_dec (Nat.min (y * p) (p' * y')) 0) as [Z0|Z0]; [|lia]. exfalso. apply (n_one N). rewrite <- Ns. unfold sprod. apply sumf_zero. intros i Hi. exfalso. apply idxs_In, in_range4 in Hi as (i0 & i1 & i2 & i3 & _ & H0 & H1 & H2 & H3).
      assert (1 <= y * p) by (destruct y, p; lia). assert (1 <= p' * y') by (destruct y', p'; lia). lia. }
    assert (SE : stuck [y; p; p'; y'] (local_matrix pre hpre h h' post hpost l e) (pair_amp a a') <-> sprod [y; p; p'; y'] (dv U) (dv U) = rz).
    { rewrite ZU. split; apply stuck_ext; try exact Vs; try (intros i Hi; symmetry; apply Vs, Hi); [exact HLM|]. intros i j Hi Hj. symmetry. apply HLM; assumption. }
    rewrite SE. rewrite (@site_halves N W eps dsvd wt thr mn mx fwd a a' He Le Re s Et U Es EU). split.
    - intros Z0. destruct (@split_zero y p p' y' U fwd HK SU (fun M CM => HS s Et U M Es EU CM) K1 Z0) as (w & ES & EB). rewrite ES. cbn [obind]. rewrite EB. reflexivity.
    - intros Z0. destruct (@split_gen N W eps dsvd wt thr mn mx H_thin H_val Hmn y p p' y' HK U SU (fun M CM => HS s Et U M Es EU CM) fwd K1) as (k' & w & sc & ES & Bk & Bm & Nsc & _ & Q2 & Q3).
      destruct Q3 as (b & b' & EH & Sb & Sb' & NB & IB & _); [intros Q; apply Z0, (proj2 (Q2 Q))|].
      exists Et, b, b', k'. rewrite ES. cbn [obind]. rewrite EH. split; [reflexivity|]. split; [exact Sb|]. split; [exact Sb'|]. split; [|split; [|auto]].
      + apply mps_fit_app. exists y. split; [exact Fl|]. exists p, k'. split; [exact Sb|]. exists p', y'. split; [exact Sb'|exact Fr].
      + rewrite (@norm_centre N pre b b' post x y p k' p' y' x' Fl Sb Sb' Fr IL IR). exact NB.
  Qed.
End U.
