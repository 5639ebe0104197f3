(** Two spins and a random chain: values for the example of C88. *)
From Verif Require Import Base Quantity QuantityProofs FlatMap SpecFlatMap FlatMapProofs FlatMapThms Ring Index SpecIndex IndexProofs Dense BTensor SpecBTensor LegsProofs BTensorProofs BTensorThms
  BTensorArith SpecArith Tensordot SpecTensordot TensordotThms View Chain SpecChain ChainProofs ChainThms ChainInst ChainEnd BmmThms
  SpecMove SpecEdges SpecSector SpecSvd BSvd SvdDense SvdEx MoveOc MoveInst Truncate SpecTruncate TruncateProofs BTrunc SpecBTrunc BTruncProofs BTruncThms
  Num SpecEig2 Lanczos SpecLanczos LanczosVec LanczosProofs LanczosEx BLanczos SpecBLanczos BTensorEx BLanczosEx BLanczosThms BLanczosMain
  SiteUpdate SpecSiteUpdate ChainNorm ChainEnergy SiteUpdateProofs SiteUpdateThms SiteUpdateEx BSiteUpdate SpecBSiteUpdate BSiteUpdateThms BSiteChain BSiteUpdateEx
  Edges SpecEdges Dmrg DmrgProofs DmrgRun SpecDmrgRun DmrgRunProofs DmrgRunThms DmrgRunMain BDmrgRun SpecBDmrgRun BRunStep BRunSite BRunProofs BRunMain BRunEnergy BSiteUnit DmrgRunEx BRunThms BRunEx Rand SpecRand SpecBcast RandChain SpecRandChain RandBDmrg SpecRandBDmrg RandBDmrgThms RandUnit RandBEnergy.
Set Implicit Arguments.

Section Ex.
  Variable N : numeric.
  Notation bt := (btensor z_group N).
  Notation den := (@stored z_group N 100).
  Notation tl := (@blegs z_group N).
  Notation dual := (@bdual z_group).
  Notation el := (d_full [1; 1; 1] (@ro N)).
  Notation hs := [zh1 N; zh2 N].
  Notation dhs := [dzh1 N; dzh2 N].
  (** Blocks of arbitrary numbers. *)
  Variable w : nat -> list nat -> list nat -> N.
  Definition ex_rnd (i : nat) (k sh : list nat) : dense N := mkD sh (w i k).
  Notation chain := (@random_bMPS_hamil z_group N (fun _ => 0) ex_rnd 1 hs (q 2)).
  Lemma ex_fit : bham_fit hs [spin; spin] bond bond.
  Proof. exists bond. split; [apply tl_z1|]. exists bond. split; [apply tl_z2|reflexivity]. Qed.
  Lemma ex_chain : exists a a', chain = Ok [a; a'].
  Proof.
    assert (E : rmap (@length bt) chain = Ok 2) by (vm_compute; reflexivity). destruct chain as [l|x|]; cbn in E; try discriminate. injection E as E. destruct l as [|a [|a' [|]]]; try discriminate. eauto.
  Qed.
  Lemma ex_keys lf f : rmap (fun P : bt => map fst (b_blocks P)) (rbind chain (fun s => match s with
      | [a; a'] => rbind (b_env_edge lf a (zh1 N) 0 0) (fun l => rbind (b_env_edge lf a' (zh2 N) 2 2) (fun e => rbind (two_sites_hamil (tensordot 100) b_perm (zh1 N) (zh2 N)) (fun H => hamil2site_times_state (tensordot 100) (@up N (mkD [1; 1; 1; 1] f)) H l e)))
      | _ => UB end)) = Ok [[0; 0; 0; 0]].
  Proof. destruct lf; vm_compute; reflexivity. Qed.

  Hypothesis RE : forall x : N, rconj x = x.
  Hypothesis Hw : forall i k o, w i k o <> rz.
  Variables (eps : N) (lf : bool) (undef : bt) (max_iter : nat).
  Hypothesis Peps : le N rz eps.
  Hypothesis Zeps : eps <> rz.
  Variables (a a' : bt) (Ds : list (dense N)).
  Hypothesis EC : chain = Ok [a; a'].
  Hypothesis HD : Forall2 (@dense_form z_group N) [a; a'] Ds.
  Lemma ex_at l e H st P : run_edges lf hs [a; a'] l e -> two_sites_hamil (tensordot 100) b_perm (zh1 N) (zh2 N) = Ok H -> (exists t, st = @up N t /\ dsh t = [1; 1; 1; 1]) -> hamil2site_times_state (tensordot 100) st H l e = Ok P -> SpecBLanczos.reached P st.
  Proof.
    intros (a0 & h & a1 & h' & E1 & E2 & E3 & E4 & E5 & E6) EH ([sht f] & -> & St) EP. cbn [dsh] in St. subst sht. cbn in E1, E2, E3, E4. injection E1 as <-. injection E2 as <-. injection E3 as <-. injection E4 as <-.
    pose proof (ex_keys lf f) as K. rewrite EC in K. cbn [rbind] in K. rewrite E5 in K. cbn [rbind] in K. rewrite E6 in K. cbn [rbind] in K. rewrite EH in K. cbn [rbind] in K. rewrite EP in K. cbn [rmap rbind] in K. injection K as K.
    exact (@P_keys N f P _ eq_refl K).
  Qed.
  Lemma ex_facts : Forall (well 100) [a; a'] /\ Forall nonempty [a; a'] /\ mps_fit tl dual [a; a'] bond bond /\ mpo_fit tl dual hs [a; a'] [a; a'] bond bond /\
    map (fun T : bt => nth 1 (tl T) ([], [])) [a; a'] = [spin; spin] /\ qprod z_group (map (@b_rule z_group N) [a; a']) = q 2 /\ canonical Ds 0 /\ chain_norm Ds 1 1 = ro.
  Proof.
    destruct (z_well N) as (_ & W2). assert (NE : Forall nonempty hs) by (pose proof (z_nonempty N) as H; apply Forall_app in H; apply H).
    destruct (@random_out z_group N (fun _ => 0) ex_rnd (fun _ _ _ => eq_refl) 100 1 hs [spin; spin] (q 2) bond bond [a; a'] ltac:(lia) ltac:(lia) ltac:(discriminate) W2 NE ex_fit EC) as (R1 & R2 & R3 & R4 & R5 & R6 & _).
    assert (V2 : Forall (@valid z_group N) hs) by (eapply Forall_impl; [|exact W2]; intros T HT; apply HT).
    assert (HS : Forall (fun p : list nat * list z_group => Forall (lt 0) (fst p)) [spin; spin]) by repeat constructor.
    assert (NN : hs <> []) by discriminate.
    destruct (@random_product z_group N (fun _ => 0) ex_rnd (fun _ _ _ => eq_refl) (fun i k sh o _ => @Hw i k o) hs [spin; spin] bond bond (q 2) [a; a'] Ds NN V2 NE ex_fit HS EC HD) as (_ & R7 & R8).
    change (trivial_bond z_group) with bond in R3. split; [exact R1|]. split; [exact R2|]. split; [exact R3|]. split; [exact R4|]. split; [exact R5|]. split; [exact R6|]. split; [apply R7|exact R8].
  Qed.
  Lemma ex_dens : Forall2 den [a; a'] Ds.
  Proof. destruct ex_facts as (W & _). clear - HD W. induction HD as [|T D l m H F IH]; constructor; inversion W as [|? ? W1 W2]; subst; [split; [apply W1|split; [exact H|apply W1]]|auto]. Qed.
  Lemma ex_reached l e k s Es p : run_edges lf hs [a; a'] l e -> k < max_iter * sweep_size 2 -> b_reached lf 100 eps (n_gtb N) (half N) (count N) (ex_svd1 N) (0%N : w_N) 1 10 undef hs [a; a'] 0 k s Es -> d_oc s = Z.of_nat p ->
    step_fine 100 eps (n_gtb N) (ex_svd1 N) 10 hs l e (d_sites s) p /\ cut_fine 100 eps (n_gtb N) (ex_svd1 N) hs l e (d_sites s) p /\ forall Dk, Forall2 den (d_sites s) Dk -> chain_norm Dk 1 1 = ro -> improvable_at eps dhs el el Dk p.
  Proof.
    intros RG Hk HR Ep. destruct (z_well N) as (_ & W2). assert (NE : Forall nonempty hs) by (pose proof (z_nonempty N) as H; apply Forall_app in H; apply H). destruct ex_facts as (F1 & F2 & F3 & F4 & F5 & F6 & F7 & F8).
    destruct (@bedges z_group N lf 100 hs [a; a'] bond bond bond bond (q 0) (q 0) (q 0) (q 0) ltac:(cbn; lia) F1 W2 F3 F4 z_carries z_carries z_carries z_carries ltac:(apply Forall_app; split; assumption) (z_order lf) (z_order lf) (z_rule N)) as (l' & e' & Dl & De & RG' & Hl & He & (-> & ->) & Tl & Te & HQ).
    assert (Q : l' = l /\ e' = e).
    { destruct RG as (a0 & h & a1 & h' & E1 & E2 & E3 & E4 & E5 & E6), RG' as (b0 & g & b1 & g' & G1 & G2 & G3 & G4 & G5 & G6). cbn in *. split; congruence. }
    destruct Q as (-> & ->).
    assert (SZ : map (size 1) Ds = [2; 2]).
    { pose proof ex_dens as D. destruct F3 as (s1 & k1 & T1 & s2 & k2 & T2 & _). cbn [map] in F5. rewrite T1, T2 in F5. cbn [nth] in F5. pose proof (f_equal (fun v => nth 0 v ([], [])) F5) as Q1. pose proof (f_equal (fun v => nth 1 v ([], [])) F5) as Q2. cbn [nth] in Q1, Q2. subst s1 s2. inversion D as [|? Da ? Dr D1 Dr']; subst. inversion Dr' as [|? Da' ? Dr2 D2 Dr'']; subst. inversion Dr''; subst.
      cbn [map]. unfold size. rewrite (stored_shape D1), (stored_shape D2), T1, T2. reflexivity. }
    assert (HC : hermitian_chain dhs el el (map (size 1) Ds)) by (rewrite SZ; exact (z_hermitian N)).
    assert (IV : forall p0 s0, binv 100 hs l e bond bond bond bond (map (fun A : bt => nth 1 (tl A) (bk0 z_group)) [a; a']) (qprod z_group (map (@b_rule z_group N) [a; a'])) p0 s0 ->
      binv 100 hs l e bond bond bond bond (map (fun A : bt => nth 1 (tl A) (bk0 z_group)) [xa N; zb N]) (qprod z_group (map (@b_rule z_group N) [xa N; zb N])) p0 s0).
    { assert (Q1 : map (fun A : bt => nth 1 (tl A) (bk0 z_group)) [a; a'] = map (fun A : bt => nth 1 (tl A) (bk0 z_group)) [xa N; zb N]) by (transitivity [spin; spin]; [exact F5|cbn [map]; rewrite tl_a, tl_zb; reflexivity]).
      assert (Q2 : qprod z_group (map (@b_rule z_group N) [xa N; zb N]) = q 2) by (apply sig_eq; reflexivity).
      intros p0 s0. rewrite Q1, F6, Q2. exact (fun x => x). }
    assert (ST : forall p0 s0 Dk, binv 100 hs l e bond bond bond bond (map (fun A : bt => nth 1 (tl A) (bk0 z_group)) [a; a']) (qprod z_group (map (@b_rule z_group N) [a; a'])) p0 s0 -> einv 100 bond bond p0 s0 Dk ->
      step_fine 100 eps (n_gtb N) (ex_svd1 N) 10 hs l e (d_sites s0) p0 /\ improvable_at eps dhs el el Dk p0 /\ cut_fine 100 eps (n_gtb N) (ex_svd1 N) hs l e (d_sites s0) p0).
    { intros p0 s0 Dk I V. exact (@z_step N RE eps l e (fun H st P => @ex_at l e H st P RG) Hl He Tl Te HQ Peps Zeps p0 s0 Dk (IV _ _ I) V). }
    destruct (@reach_inv z_group N w_N lf 100 eps eps (n_gtb N) (half N) (count N) (ex_svd1 N) 0%N 1 10 undef Peps Zeps (@gtb_order N RE) (half_lower N) (half_0 N) ltac:(lia) (@svd1_gtb N RE) (fun v => @count_exact N RE v)
      hs [a; a'] dhs Ds bond bond bond bond 0 max_iter ltac:(cbn; lia) ltac:(cbn; lia) ex_dens (den_hs N) F3 F4 l e el el RG Hl He Tl Te HQ HC F7 F8) with (k := k) (s := s) (Es := Es) as (p' & Dk & I & V); [|cbn [length]; lia|exact HR|].
    - intros k0 s0 Es0 p0 D0 _ _ I V. destruct (ST _ _ _ I V) as (A & B & _). auto.
    - assert (p' = p) by (destruct I as (A & _); rewrite A in Ep; lia). subst p'. destruct (ST _ _ _ I V) as (A & _ & B). split; [exact A|]. split; [exact B|].
      intros D F NV. assert (V' : einv 100 bond bond p s D).
      { destruct (inv_pair (IV _ _ I)) as (-> & b & b' & k1 & Es' & _). rewrite Es' in F. inversion F as [|? ? ? ? _ Q1]; subst. inversion Q1 as [|? ? ? ? _ Q2]; subst. inversion Q2; subst. split; [rewrite Es'; exact F|]. split; [constructor|]. split; [constructor|exact NV]. }
      apply (ST _ _ _ I V').
  Qed.
End Ex.

(** Bonds of two values: the chain is not normalized. *)
Section Two.
  Variable N : numeric.
  Add Ring Rr : (ring_th N).
  Notation bt := (btensor z_group N).
  Notation hs := [zh1 N; zh2 N].
  Notation rnd1 := (@ex_rnd N (fun _ _ _ => ro)).
  Notation chain := (@random_bMPS_hamil z_group N (fun _ => 0) rnd1 2 hs (q 2)).
  Notation one := (rmul (@ro N) (rconj ro)).
  Definition nrm2 : N := n_sqrt N (radd rz (radd one (radd one rz))).
  Definition nrm4 : N := n_sqrt N (radd rz (radd one (radd one (radd one (radd one rz))))).
  Definition look (T : bt) : list (list nat) * list nat * list (list nat * list N) := (legs T, b_sbd T, map (fun e => (fst e, map (dv (snd e)) (idxs (dsh (snd e))))) (b_blocks T)).
  Lemma two_look : rmap (map look) chain = Ok [([[1]; [1; 1]; [2]], [1; 2; 1], [([0; 0; 0], [ndiv N ro nrm2; ndiv N ro nrm2])]); ([[2]; [1; 1]; [1]], [1; 2; 1], [([0; 0; 0], [ndiv N ro nrm4; ndiv N ro nrm4])])].
  Proof. vm_compute. reflexivity. Qed.
  Lemma two_chain : exists a a', chain = Ok [a; a'] /\ look a = ([[1]; [1; 1]; [2]], [1; 2; 1], [([0; 0; 0], [ndiv N ro nrm2; ndiv N ro nrm2])]) /\ look a' = ([[2]; [1; 1]; [1]], [1; 2; 1], [([0; 0; 0], [ndiv N ro nrm4; ndiv N ro nrm4])]).
  Proof.
    pose proof two_look as E. destruct chain as [l|x|]; try discriminate. cbn [rmap rbind] in E. destruct l as [|a [|a' [|b l]]]; try discriminate. exists a, a'. split; [reflexivity|].
    cbn [map] in E. assert (E1 : [look a; look a'] = [([[1]; [1; 1]; [2]], [1; 2; 1], [([0; 0; 0], [ndiv N ro nrm2; ndiv N ro nrm2])]); ([[2]; [1; 1]; [1]], [1; 2; 1], [([0; 0; 0], [ndiv N ro nrm4; ndiv N ro nrm4])])]) by (injection E; intros; congruence).
    split; [exact (f_equal (fun v => nth 0 v (look a)) E1)|exact (f_equal (fun v => nth 1 v (look a)) E1)].
  Qed.
  Lemma look_entries (T : bt) D L x y : valid T -> dense_form T D -> look T = (L, lens L, [([0; 0; 0], [x; y])]) -> (L = [[1]; [1; 1]; [2]] \/ L = [[2]; [1; 1]; [1]]) ->
    dsh D = tots L /\ map (dv D) (idxs (pick 0 L [0; 0; 0])) = [x; y] /\ forall o, In o (idxs (pick 0 L [0; 1; 0])) -> dv D (place L [0; 1; 0] o) = rz.
  Proof.
    intros V (SD & FD) LK HL. unfold look in LK. injection LK as EL ES EB. rewrite EL in SD, FD. rewrite ES in FD. destruct (b_blocks T) as [|[k t] [|]] eqn:B; try discriminate. cbn [map fst snd] in EB. injection EB as -> EB.
    destruct (proj1 (proj2 V) [0; 0; 0] t) as (_ & St); [rewrite B; left; reflexivity|]. rewrite EL in St. split; [exact SD|].
    assert (FD0 : forall o, in_range (pick 0 L [0; 0; 0]) o = true -> dv D (place L [0; 0; 0] o) = dv t o).
    { intros o Ho. rewrite FD; [|destruct HL as [-> | ->]; reflexivity|exact Ho]. unfold bentry. rewrite B. reflexivity. }
    split.
    - rewrite <- EB, St. destruct HL as [-> | ->]; cbn [pick nth]; cbn; rewrite <- !FD0 by reflexivity; reflexivity.
    - intros o Ho. apply idxs_In in Ho. rewrite FD; [|destruct HL as [-> | ->]; reflexivity|exact Ho]. unfold bentry. rewrite B. reflexivity.
  Qed.
  Lemma ndiv1_sq (s : N) v : rmul s s = v -> v <> rz -> rmul v (rmul (ndiv N ro s) (ndiv N ro s)) = ro.
  Proof.
    intros E Z. assert (Zs : s <> rz) by (intros ->; apply Z; rewrite <- E; ring). pose proof (@div_mul N ro s Zs) as Q. rewrite <- E. transitivity (rmul (rmul s (ndiv N ro s)) (rmul s (ndiv N ro s))); [ring|]. rewrite Q. ring.
  Qed.
  Notation two := (two N).
  Lemma nrm2_sq : rmul nrm2 nrm2 = two.
  Proof. unfold nrm2. rewrite n_sqrt_sq; rewrite ?conj1; [unfold Num.two; ring|]. replace (radd rz (radd (rmul ro ro) (radd (rmul ro ro) rz))) with two by (unfold Num.two; ring). apply n_nn_add; apply nn1. Qed.
  Lemma nrm4_sq : rmul nrm4 nrm4 = rmul two two.
  Proof.
    unfold nrm4. rewrite n_sqrt_sq; rewrite ?conj1; [unfold Num.two; ring|]. replace (radd rz (radd (rmul ro ro) (radd (rmul ro ro) (radd (rmul ro ro) (radd (rmul ro ro) rz))))) with (rmul two two) by (unfold Num.two; ring).
    apply n_nn_mul; apply n_nn_add; apply nn1.
  Qed.
  Lemma two_norm a a' Ds : chain = Ok [a; a'] -> Forall2 (@dense_form z_group N) [a; a'] Ds -> (forall x : N, rconj x = x) -> chain_norm Ds 1 1 <> ro.
  Proof.
    intros EC HD RE. destruct two_chain as (b & b' & EB & LA & LA'). rewrite EC in EB. assert (EB' : [a; a'] = [b; b']) by congruence. pose proof (f_equal (fun v => nth 0 v a) EB') as Q1. pose proof (f_equal (fun v => nth 1 v a) EB') as Q2. cbn [nth] in Q1, Q2. subst b b'. clear EB EB'.
    destruct (z_well N) as (_ & W2). assert (NE : Forall nonempty hs) by (pose proof (z_nonempty N) as H; apply Forall_app in H; apply H).
    destruct (@random_out z_group N (fun _ => 0) rnd1 (fun _ _ _ => eq_refl) 100 2 hs [spin; spin] (q 2) bond bond [a; a'] ltac:(lia) ltac:(lia) ltac:(discriminate) W2 NE (ex_fit N) EC) as (R1 & _).
    inversion HD as [|? D ? Dr F1 HD1]; subst. inversion HD1 as [|? D' ? Dr' F2 HD2]; subst. inversion HD2; subst. inversion R1 as [|? ? (V1 & _) R2]; subst. inversion R2 as [|? ? (V2 & _) _]; subst.
    destruct (@look_entries a D _ _ _ V1 F1 LA (or_introl eq_refl)) as (S1 & X1 & Z1). destruct (@look_entries a' D' _ _ _ V2 F2 LA' (or_intror eq_refl)) as (S2 & X2 & Z2).
    set (x := ndiv N ro nrm2) in *. set (y := ndiv N ro nrm4) in *.
    change (map (dv D) [[0; 0; 0]; [0; 0; 1]] = [x; x]) in X1. change (map (dv D') [[0; 0; 0]; [1; 0; 0]] = [y; y]) in X2. cbn [map] in X1, X2. injection X1 as X1 X1'. injection X2 as X2 X2'.
    pose proof (Z1 [0; 0; 0] (or_introl eq_refl)) as Y1. pose proof (Z1 [0; 0; 1] (or_intror (or_introl eq_refl))) as Y1'. pose proof (Z2 [0; 0; 0] (or_introl eq_refl)) as Y2. pose proof (Z2 [1; 0; 0] (or_intror (or_introl eq_refl))) as Y2'. cbn in Y1, Y1', Y2, Y2'.
    rewrite (@norm_pair N D D' 1 2 2 2 1 S1 S2). unfold sprod. change (idxs [1; 2; 2; 1]) with [[0;0;0;0];[0;0;1;0];[0;1;0;0];[0;1;1;0]]. rewrite !sumf_cons, !sumf_nil.
    rewrite !(@pair_val N D D' 2 1) by (unfold size; rewrite ?S1, ?S2; reflexivity || lia). cbn [seq]. rewrite !sumf_cons, !sumf_nil, X1, X1', X2, X2', Y1, Y1', Y2, Y2', !RE. intros E.
    assert (Z4 : rmul two two <> rz) by (intros Q; apply mul_zero in Q as [Q|Q]; exact (@two_neq N Q)).
    pose proof (@ndiv1_sq nrm2 two nrm2_sq (@two_neq N)) as Q1. pose proof (@ndiv1_sq nrm4 (rmul two two) nrm4_sq Z4) as Q2. fold x in Q1. fold y in Q2.
    assert (Q3 : rmul x x = ro) by (transitivity (rmul (rmul x x) (rmul (rmul two two) (rmul y y))); [rewrite Q2; ring|rewrite <- E; unfold Num.two; ring]). rewrite Q3 in Q1.
    apply (n_one N). transitivity (radd (rmul two ro) (ropp ro)); [unfold Num.two; ring|rewrite Q1; ring].
  Qed.
End Two.
