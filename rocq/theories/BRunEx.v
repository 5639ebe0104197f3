(** Two spins up with the product of their third Pauli matrices, negated: values for the example of C84. *)
From Verif Require Import Base Quantity QuantityProofs FlatMap SpecFlatMap FlatMapProofs FlatMapThms Ring Index SpecIndex IndexProofs Dense BTensor SpecBTensor LegsProofs BTensorProofs BTensorThms
  BTensorArith SpecArith Tensordot SpecTensordot TensordotThms View Chain SpecChain ChainProofs ChainThms ChainInst ChainEnd BmmThms
  SpecMove SpecEdges SpecSector SpecSvd BSvd SvdDense SvdEx MoveOc MoveInst Truncate SpecTruncate TruncateProofs BTrunc SpecBTrunc BTruncProofs BTruncThms
  Num SpecEig2 Lanczos SpecLanczos LanczosVec LanczosProofs LanczosEx BLanczos SpecBLanczos BTensorEx BLanczosEx BLanczosThms BLanczosMain
  SiteUpdate SpecSiteUpdate ChainNorm ChainEnergy SiteUpdateProofs SiteUpdateThms SiteUpdateEx BSiteUpdate SpecBSiteUpdate BSiteUpdateThms BSiteChain BSiteUpdateEx
  Edges SpecEdges Dmrg DmrgProofs DmrgRun SpecDmrgRun DmrgRunProofs DmrgRunThms DmrgRunMain BDmrgRun SpecBDmrgRun BRunStep BRunSite BRunProofs BRunMain BRunEnergy BSiteUnit DmrgRunEx.
Set Implicit Arguments.

Section F.
  Context {G : abgroup} {R : ring}.
  Lemma fields (T : btensor G R) L : meta_ok T -> blegs T = L -> b_rank T = length L /\ b_sbd T = lens (map fst L) /\ b_ss T = concat (map fst L) /\ b_cv T = concat (map snd L).
  Proof.
    intros M E. destruct (blegs_split M E) as (E1 & E2). rewrite <- E1, <- E2. split; [rewrite <- E; symmetry; apply (blegs_length M)|]. split; [symmetry; apply (legs_lens M)|]. split; [apply (ss_concat M)|].
    destruct M as (_ & _ & M). unfold qlegs. symmetry. apply concat_unpack. exact M.
  Qed.
End F.

Section Ex.
  Variable N : numeric.
  Add Ring Rr : (ring_th N).
  Notation bt := (btensor z_group N).
  Notation d := (dense N).
  Notation den := (@stored z_group N 100).
  Notation tl := (@blegs z_group N).
  Notation dual := (@bdual z_group).
  Notation de := (ex_env N).
  Notation sh := [1; 2; 2; 1].
  Ltac red_ex := cbn; cbv beta iota delta [Nat.eqb andb orb negb].
  Ltac keys Hb := apply idxs_In in Hb; cbn in Hb; repeat (destruct Hb as [<-|Hb]; [|]); [..|contradiction].
  Notation leg := (list nat * list z_group)%type.
  (** The second spin up; the total quantity is 2. *)
  Definition zb : bt := @mkB z_group N (q 2) 3 [1; 2; 1] [1; 1; 1; 1] [q 1; q 1; q (-1); q 0] [([0; 0; 0], u N 3 ro)].
  Definition zh1 : bt := @mkB z_group N (q 0) 4 [1; 2; 1; 2] [1; 1; 1; 1; 1; 1] [q 0; q 1; q (-1); q 0; q (-1); q 1] [([0; 0; 0; 0], u N 4 (ropp ro)); ([0; 1; 0; 1], u N 4 ro)].
  Definition zh2 : bt := @mkB z_group N (q 0) 4 [1; 2; 1; 2] [1; 1; 1; 1; 1; 1] [q 0; q 1; q (-1); q 0; q (-1); q 1] [([0; 0; 0; 0], u N 4 ro); ([0; 1; 0; 1], u N 4 (ropp ro))].
  Definition dzh1 : d := mkD [1; 2; 1; 2] (fun i => if nth 1 i 0 =? nth 3 i 0 then (if nth 1 i 0 =? 0 then ropp ro else ro) else rz).
  Definition dzh2 : d := mkD [1; 2; 1; 2] (fun i => pauli N (nth 1 i 0) (nth 3 i 0)).
  Ltac dens := split; [|split];
    [apply valid_of; [repeat split| |repeat constructor]; intros k t H; repeat (destruct H as [[= <- <-]|H]; [repeat split|]); contradiction
    |split; [reflexivity|]; intros b o Hb Ho;
      match type of Hb with in_range ?s _ = true => let s' := eval cbn in s in change (in_range s' b = true) in Hb end; keys Hb;
      match type of Ho with in_range ?s _ = true => let s' := eval cbn in s in change (in_range s' o = true) in Ho end; keys Ho; reflexivity
    |intros s H; cbn in H; intuition lia].
  Lemma den_zb : den zb (da N). Proof. dens. Qed.
  Lemma den_zh1 : den zh1 dzh1. Proof. dens. Qed.
  Lemma den_zh2 : den zh2 dzh2. Proof. dens. Qed.
  Ltac legs := unfold blegs, bdual; cbn; repeat f_equal; apply sig_eq; reflexivity.
  Lemma tl_zb : tl zb = [dual down; spin; bond]. Proof. legs. Qed.
  Lemma tl_z1 : tl zh1 = [dual bond; spin; bond; dual spin]. Proof. legs. Qed.
  Lemma tl_z2 : tl zh2 = [dual bond; spin; bond; dual spin]. Proof. legs. Qed.
  Lemma z_fit : mps_fit tl dual [xa N; zb] bond bond.
  Proof. exists spin, down. split; [apply tl_a|]. exists spin, bond. split; [exact tl_zb|reflexivity]. Qed.
  Lemma z_ofit : mpo_fit tl dual [zh1; zh2] [xa N; zb] [xa N; zb] bond bond.
  Proof. exists bond, spin, spin. rewrite tl_a. split; [exact tl_z1|]. repeat (split; [reflexivity|]). exists bond, spin, spin. rewrite tl_zb. split; [exact tl_z2|]. repeat split. Qed.
  Lemma z_hermitian : hermitian_chain [dzh1; dzh2] (d_full [1; 1; 1] ro) (d_full [1; 1; 1] ro) [2; 2].
  Proof.
    intros x s x' y s' y' Hs Hs' Hx Hy Hx' Hy'. cbn in Hx, Hy, Hx', Hy'. assert (x = 0) by lia. assert (y = 0) by lia. assert (x' = 0) by lia. assert (y' = 0) by lia. subst. unfold operator. cbn [d_full size dsh nth seq].
    keys Hs; keys Hs'; rewrite !sumf_cons, !sumf_nil; red_ex; unfold pauli; red_ex; repeat first [rewrite rconj_add|rewrite rconj_mul|rewrite conj_opp|rewrite conj1|rewrite conj0]; ring.
  Qed.
  Lemma z_norm : chain_norm [da N; da N] 1 1 = ro.
  Proof.
    rewrite (@norm_pair N (da N) (da N) 1 2 1 2 1 eq_refl eq_refl). unfold sprod. change (idxs sh) with [[0;0;0;0];[0;0;1;0];[0;1;0;0];[0;1;1;0]]. rewrite !sumf_cons, !sumf_nil.
    rewrite !(@pair_val N (da N) (da N) 1 1) by (reflexivity || lia). red_ex. rewrite ?rconj_add, ?rconj_mul, ?conj1, ?conj0. ring.
  Qed.
  Lemma z_iso : left_isometry (da N) /\ right_isometry (da N).
  Proof.
    split; intros x x' Hx Hx'; cbn in Hx, Hx'; assert (x = 0) by lia; assert (x' = 0) by lia; subst; cbn [size da dsh nth seq]; rewrite ?sumf_cons, ?sumf_nil; red_ex; rewrite ?sumf_cons, ?sumf_nil; red_ex; rewrite ?conj1, ?conj0; ring.
  Qed.

  (** A pair with legs as these and total quantity 2 has one block at most. *)
  Definition up (t : d) : bt := @mkB z_group N (q 2) 4 [1; 2; 2; 1] [1; 1; 1; 1; 1; 1] [q 0; q 1; q (-1); q 1; q (-1); q 0] [([0; 0; 0; 0], t)].
  Lemma up_only (T : bt) : valid T -> tl T = [dual bond; spin; spin; bond] -> b_rule T = q 2 -> b_blocks T <> [] -> exists t, T = up t /\ dsh t = [1; 1; 1; 1].
  Proof.
    intros V TT RT NB. destruct (fields (proj1 V) TT) as (F1 & F2 & F3 & F4). cbn in F1, F2, F3, F4.
    assert (K : forall k t, In (k, t) (b_blocks T) -> k = [0; 0; 0; 0] /\ dsh t = [1; 1; 1; 1]).
    { intros k t Hk. destruct (blegs_split (proj1 V) TT) as (L1 & L2). cbn in L1, L2. destruct (proj1 (proj2 V) k t Hk) as ((R1 & R2) & R3). rewrite F2 in R1. change (in_range sh k = true) in R1. rewrite L2, RT in R2. rewrite L1 in R3.
      apply (f_equal (@proj1_sig _ _)) in R2. revert R2 R3. keys R1; cbn; intros R2 R3; try discriminate. auto. }
    destruct (b_blocks T) as [|[k t] [|[k' t'] r]] eqn:EB; [congruence| |].
    - exists t. destruct (K k t (or_introl eq_refl)) as (-> & St). split; [|exact St]. destruct T as [c0 c1 c2 c3 c4 c5]. cbn in *. subst. unfold up. f_equal. repeat f_equal; apply sig_eq; reflexivity.
    - exfalso. destruct (K k t (or_introl eq_refl)) as (-> & _). destruct (K k' t' (or_intror (or_introl eq_refl))) as (-> & _). pose proof (proj2 (proj2 V)) as S. rewrite EB in S. inversion S as [|? ? _ S1]; subst. inversion S1 as [|? ? S2]; subst. cbn in S2. discriminate.
  Qed.
  Lemma up_dense (T : bt) D i : valid T -> dense_form T D -> tl T = [dual bond; spin; spin; bond] -> b_rule T = q 2 -> in_range sh i = true -> i = [0; 0; 0; 0] \/ dv D i = rz.
  Proof.
    intros V (SD & FD) TT RT Hi. destruct (blegs_split (proj1 V) TT) as (L1 & L2). cbn in L1, L2. destruct (fields (proj1 V) TT) as (_ & F2 & _). cbn in F2. rewrite L1, F2 in FD.
    assert (Z : forall b, in_range sh b = true -> b <> [0; 0; 0; 0] -> bentry T b [0; 0; 0; 0] = rz).
    { intros b Hb NB. unfold bentry. destruct (b_blocks T) as [|z r] eqn:EB; [reflexivity|]. destruct (@up_only T V TT RT) as (t & E & _); [congruence|]. rewrite E in EB. injection EB as <- <-. cbn [assoc fst snd up b_blocks]. destruct (leqb [0; 0; 0; 0] b) eqn:Q; [apply leqb_eq in Q; congruence|reflexivity]. }
    keys Hi; [left; reflexivity| | |]; right; [rewrite <- (Z [0; 0; 1; 0])|rewrite <- (Z [0; 1; 0; 0])|rewrite <- (Z [0; 1; 1; 0])]; try reflexivity; try discriminate;
      [apply (FD [0; 0; 1; 0] [0; 0; 0; 0])|apply (FD [0; 1; 0; 0] [0; 0; 0; 0])|apply (FD [0; 1; 1; 0] [0; 0; 0; 0])]; reflexivity.
  Qed.

  Lemma two_split A (pre post : list A) a a' b b' : pre ++ [a; a'] ++ post = [b; b'] -> pre = [] /\ post = [] /\ a = b /\ a' = b'.
  Proof. destruct pre as [|x [|y pre]]; cbn; intros [= H1 H2]; subst; auto; try discriminate; destruct pre; discriminate. Qed.
  Ltac dist := repeat (constructor; [cbn; intuition congruence|]); constructor.
  Lemma pair_merge (a a' : bt) Da Da' k : den a Da -> den a' Da' -> tl a = [dual bond; spin; k] -> tl a' = [dual k; spin; bond] -> qop z_group (b_rule a) (b_rule a') = q 2 ->
    exists st Dst, merge (tensordot 100) a a' = Ok st /\ tl st = [dual bond; spin; spin; bond] /\ den st Dst /\ b_rule st = q 2 /\ forall i, in_range sh i = true -> dv Dst i = pair_amp Da Da' i.
  Proof.
    intros Ha Ha' Ta Ta' RR.
    destruct (@stored_tdot_rule z_group N 100 a a' Da Da' [2] [0] Ha Ha') as (st & ES & TS & HS & RS); try (rewrite ?Ta, ?Ta'; solve [intros ? [<-|[]]; cbn; lia | cbn; lia | dist | reflexivity | cbn; rewrite ?bdual_dual; reflexivity]).
    rewrite Ta, Ta' in TS. change (tl st = [dual bond; spin; spin; bond]) in TS. fold (merge (tensordot 100) a a') in ES. exists st, (d_tdot Da Da' [2] [0]). split; [exact ES|]. split; [exact TS|]. split; [exact HS|]. split; [rewrite RS; exact RR|].
    assert (Sa : dsh Da = [1; 2; bsz z_group k]) by (rewrite (stored_shape Ha), Ta; reflexivity). assert (Sa' : dsh Da' = [bsz z_group k; 2; 1]) by (rewrite (stored_shape Ha'), Ta'; cbn [map]; rewrite sizes_dual; reflexivity).
    intros i Hi. apply in_range4 in Hi as (i0 & i1 & i2 & i3 & -> & H0 & H1 & H2 & H3). rewrite (@tdot_33 N Da Da' _ _ _ _ _ i0 i1 i2 i3 Sa Sa'). symmetry. apply pair_val with (y := 1); [unfold size; rewrite Sa; reflexivity|unfold size; rewrite Sa'; reflexivity|exact H3].
  Qed.
  Lemma pair_zero (a a' : bt) Da Da' k i : den a Da -> den a' Da' -> tl a = [dual bond; spin; k] -> tl a' = [dual k; spin; bond] -> qop z_group (b_rule a) (b_rule a') = q 2 -> in_range sh i = true -> i = [0; 0; 0; 0] \/ pair_amp Da Da' i = rz.
  Proof. intros Ha Ha' Ta Ta' RR Hi. destruct (pair_merge Ha Ha' Ta Ta' RR) as (st & Dst & _ & TS & (V & F & _) & RS & VS). rewrite <- VS by exact Hi. exact (up_dense i V F TS RS Hi). Qed.
  Lemma z_improvable (eps : N) (v : list nat -> N) : (forall i, in_range sh i = true -> i = [0; 0; 0; 0] \/ v i = rz) -> improvable sh (local_matrix [] [] dzh1 dzh2 [] [] (d_full [1; 1; 1] ro) (d_full [1; 1; 1] ro)) eps v.
  Proof.
    intros Z. right. exists (ropp ro). split; [apply DmrgRunEx.minus_one|]. intros i Hi. unfold apply. change (idxs sh) with [[0; 0; 0; 0]; [0; 0; 1; 0]; [0; 1; 0; 0]; [0; 1; 1; 0]]. rewrite !sumf_cons, !sumf_nil.
    destruct (Z [0; 0; 1; 0] eq_refl) as [Q|Z1]; [discriminate|]. destruct (Z [0; 1; 0; 0] eq_refl) as [Q|Z2]; [discriminate|]. destruct (Z [0; 1; 1; 0] eq_refl) as [Q|Z3]; [discriminate|]. rewrite Z1, Z2, Z3.
    unfold local_matrix. cbn [size dsh dzh1 dzh2 nth seq]. unfold left_part, right_part, element, size. cbn [d_full dsh nth seq]. 
    destruct (Z i Hi) as [-> | Zi].
    - rewrite !sumf_cons, !sumf_nil. red_ex. unfold pauli. red_ex. rewrite ?conj1. ring.
    - assert (NI : i <> [0; 0; 0; 0] \/ v [0; 0; 0; 0] = rz) by (destruct (leqb i [0; 0; 0; 0]) eqn:Q; [apply leqb_eq in Q; subst; auto|left; intros ->; discriminate]).
      rewrite Zi. destruct NI as [NI|Z0]; [|rewrite Z0; ring]. keys Hi; [congruence| | |]; rewrite !sumf_cons, !sumf_nil; red_ex; unfold pauli; red_ex; rewrite ?conj1; ring.
  Qed.

  Notation keys_ := (rmap (fun P : bt => map fst (b_blocks P))).
  Lemma P_up lf f : keys_ (rbind (b_env_edge lf (xa N) zh1 0 0) (fun l => rbind (b_env_edge lf zb zh2 2 2) (fun e => rbind (two_sites_hamil (tensordot 100) b_perm zh1 zh2) (fun H => hamil2site_times_state (tensordot 100) (up (mkD [1; 1; 1; 1] f)) H l e)))) = Ok [[0; 0; 0; 0]].
  Proof. destruct lf; vm_compute; reflexivity. Qed.
  Lemma z_edges lf l e : run_edges lf [zh1; zh2] [xa N; zb] l e -> b_env_edge lf (xa N) zh1 0 0 = Ok l /\ b_env_edge lf zb zh2 2 2 = Ok e.
  Proof. intros (a & h & a' & h' & E1 & E2 & E3 & E4 & E5 & E6). cbn in E1, E2, E3, E4. injection E1 as <-. injection E2 as <-. injection E3 as <-. injection E4 as <-. auto. Qed.
  Lemma P_keys f P st : st = up (mkD [1; 1; 1; 1] f) -> map fst (b_blocks P) = [[0; 0; 0; 0]] -> SpecBLanczos.reached P st.
  Proof.
    intros -> K. assert (S0 : has (up (mkD [1; 1; 1; 1] f)) [0; 0; 0; 0]) by (apply has_in; left; reflexivity). split.
    - exists [0; 0; 0; 0]. split; [apply has_in; rewrite K; left; reflexivity|exact S0].
    - intros k Hk. exists [0; 0; 0; 0]. split; [exact S0|]. apply has_of in Hk. rewrite K in Hk. destruct Hk as [<-|[]]. reflexivity.
  Qed.
  Lemma P_at lf l e H st P : run_edges lf [zh1; zh2] [xa N; zb] l e -> two_sites_hamil (tensordot 100) b_perm zh1 zh2 = Ok H -> (exists t, st = up t /\ dsh t = [1; 1; 1; 1]) -> hamil2site_times_state (tensordot 100) st H l e = Ok P -> SpecBLanczos.reached P st.
  Proof.
    intros RE EH ([sht f] & -> & St) EP. cbn [dsh] in St. subst sht. apply z_edges in RE as (E1 & E2). pose proof (P_up lf f) as K. rewrite E1 in K. cbn [rbind] in K. rewrite E2 in K. cbn [rbind] in K. rewrite EH in K. cbn [rbind] in K. rewrite EP in K. cbn [rmap rbind] in K. injection K as K. exact (@P_keys f P _ eq_refl K).
  Qed.
  (** What the invariant of a run says here. *)
  Notation inv l e := (binv 100 [zh1; zh2] l e bond bond bond bond (map (fun A : bt => nth 1 (tl A) (bk0 z_group)) [xa N; zb]) (qprod z_group (map (@b_rule z_group N) [xa N; zb]))).
  Lemma inv_pair l e p s : inv l e p s -> p = 0 /\ exists a a' k, d_sites s = [a; a'] /\ well 100 a /\ well 100 a' /\ tl a = [dual bond; spin; k] /\ tl a' = [dual k; spin; bond] /\ qop z_group (b_rule a) (b_rule a') = q 2.
  Proof.
    intros (_ & Hp & F & O & WS & Ps & Rs & _). cbn in Hp. split; [lia|]. pose proof (bofit_len _ _ _ _ _ O) as LS. destruct (d_sites s) as [|a [|a' [|]]]; try discriminate.
    destruct F as (s1 & k & Ta & s2 & k2 & Ta' & F). cbn in F. subst k2. cbn [map] in Ps. rewrite Ta, Ta' in Ps. cbn [nth] in Ps. pose proof (f_equal (fun v => nth 0 v (bk0 z_group)) Ps) as P1. pose proof (f_equal (fun v => nth 1 v (bk0 z_group)) Ps) as P2. cbn [nth] in P1, P2. rewrite tl_a in P1. rewrite tl_zb in P2. cbn [nth] in P1, P2. subst s1 s2.
    inversion WS as [|? ? W1 W2]; subst. inversion W2 as [|? ? W3 _]; subst. exists a, a', k. split; [reflexivity|]. split; [exact W1|]. split; [exact W3|]. split; [exact Ta|]. split; [exact Ta'|].
    unfold qprod in Rs. cbn [map fold_right] in Rs. rewrite !qop_e_r in Rs. rewrite Rs. apply sig_eq. reflexivity.
  Qed.

  Hypothesis RE : forall x : N, rconj x = x.
  Variable eps : N.
  Notation el := (d_full [1; 1; 1] (@ro N)).
  Notation fine l e s p := (step_fine 100 eps (n_gtb N) (ex_svd1 N) 10 [zh1; zh2] l e (d_sites s) p).
  (** A normalized pair stores its block. *)
  Lemma stored_up (T : bt) D : den T D -> tl T = [dual bond; spin; spin; bond] -> b_rule T = q 2 -> sprod sh (dv D) (dv D) = ro -> exists t, T = up t /\ dsh t = [1; 1; 1; 1] /\ dv t [0; 0; 0; 0] <> rz.
  Proof.
    intros (V & F & _) TT RT NU. pose proof (fun i => @up_dense T D i V F TT RT) as UD. destruct F as (SD & FD).
    assert (E0 : dv D [0; 0; 0; 0] = bentry T [0; 0; 0; 0] [0; 0; 0; 0]).
    { destruct (blegs_split (proj1 V) TT) as (L1 & L2). cbn in L1, L2. destruct (fields (proj1 V) TT) as (_ & F2 & _). cbn in F2. rewrite L1, F2 in FD. apply (FD [0; 0; 0; 0] [0; 0; 0; 0]); reflexivity. }
    assert (NZ : dv D [0; 0; 0; 0] <> rz).
    { intros Z. apply (n_one N). rewrite <- NU. unfold sprod. apply sumf_zero. intros i Hi. apply idxs_In in Hi. destruct (UD i Hi) as [-> | Zi]; [rewrite Z|rewrite Zi]; ring. }
    destruct (b_blocks T) as [|z r] eqn:EB; [exfalso; apply NZ; rewrite E0; unfold bentry; rewrite EB; reflexivity|].
    destruct (@up_only T V TT RT) as (t & E & St); [congruence|]. exists t. split; [exact E|]. split; [exact St|]. intros Z. apply NZ. rewrite E0, E. cbn. exact Z.
  Qed.
  Section Run.
  Variables (l e : bt).
  Hypothesis PA : forall H st P, two_sites_hamil (tensordot 100) b_perm zh1 zh2 = Ok H -> (exists t, st = up t /\ dsh t = [1; 1; 1; 1]) -> hamil2site_times_state (tensordot 100) st H l e = Ok P -> SpecBLanczos.reached P st.
  Hypothesis (Hl : den l el) (He : den e el).
  Hypothesis Tl : tl l = [bond; bond; dual bond].
  Hypothesis Te : tl e = [dual bond; dual bond; bond].
  Hypothesis HQ : qop z_group (b_rule l) (qop z_group (qprod z_group (map (@b_rule z_group N) [zh1; zh2])) (b_rule e)) = qe z_group.
  Hypothesis Peps : le N rz eps.
  Hypothesis Zeps : eps <> rz.
  Lemma den_hs : Forall2 den [zh1; zh2] [dzh1; dzh2].
  Proof. constructor; [apply den_zh1|]. constructor; [apply den_zh2|constructor]. Qed.
  Lemma z_h2 : exists hs2, compute_2sites_hamil (tensordot 100) b_perm [zh1; zh2] = Ok hs2.
  Proof.
    destruct (@b_two_sites z_group N 100 zh1 [zh2] bond bond dzh1 [dzh2] den_zh1) as (hs2 & E2 & _); [constructor; [apply den_zh2|constructor]| |eauto].
    exists spin, bond, (dual spin). split; [exact tl_z1|]. exists spin, bond, (dual spin). split; [exact tl_z2|reflexivity].
  Qed.
  Lemma at_state p s Dk : inv l e p s -> einv 100 bond bond p s Dk -> exists a a' k Da Da' st Dst H, p = 0 /\ d_sites s = [a; a'] /\ Dk = [Da; Da'] /\ den a Da /\ den a' Da' /\ tl a = [dual bond; spin; k] /\ tl a' = [dual k; spin; bond] /\
    qop z_group (b_rule a) (b_rule a') = q 2 /\ merge (tensordot 100) a a' = Ok st /\ den st Dst /\ tl st = [dual bond; spin; spin; bond] /\ b_rule st = q 2 /\ sprod sh (dv Dst) (dv Dst) = ro /\
    two_sites_hamil (tensordot 100) b_perm zh1 zh2 = Ok H /\ (forall Et U, b_update 100 eps st H l e = Ok (Et, U) -> b_rule U = q 2) /\ exists Et U DU, b_update 100 eps st H l e = Ok (Et, U) /\ den U DU /\ tl U = [dual bond; spin; spin; bond] /\ sprod sh (dv DU) (dv DU) = ro.
  Proof.
    intros I (HD & _ & _ & HN). pose proof I as (_ & _ & Fs & Os & _ & _). destruct (inv_pair I) as (-> & a & a' & k & Es & W1 & W2 & Ta & Ta' & RR). rewrite Es in HD, Fs, Os. inversion HD as [|? Da ? Dr Ha HD1]; subst. inversion HD1 as [|? Da' ? Dr' Ha' HD2]; subst. inversion HD2; subst.
    assert (Sa : dsh Da = [1; 2; bsz z_group k]) by (rewrite (stored_shape Ha), Ta; reflexivity). assert (Sa' : dsh Da' = [bsz z_group k; 2; 1]) by (rewrite (stored_shape Ha'), Ta'; cbn [map]; rewrite sizes_dual; reflexivity).
    change (chain_norm [Da; Da'] 1 1 = ro) in HN.
    destruct (pair_merge Ha Ha' Ta Ta' RR) as (st & Dst & EM & TS & HS & RS & VS).
    assert (NS : sprod sh (dv Dst) (dv Dst) = ro) by (rewrite (@norm_pair N Da Da' 1 2 _ 2 1 Sa Sa') in HN; rewrite <- HN; apply sprod_ext; exact VS).
    destruct z_h2 as (hs2 & E2).
    destruct (binv_parts eps (n_gtb N) (half N) (count N) (ex_svd1 N) den_hs Hl He Tl Te E2 HQ I) as (b & b' & h & h' & y & r & k0 & r' & y' & c & m & c' & Le & Re & H & (E1 & Eh) & _ & _ & (Tb & Tb' & Th & Th') & _ & _ & (WL & WR & WH) & (TL & TR & TH) & CV & _ & _ & DL & DR & DH & _ & _ & HDL & HDR & HDH).
    rewrite Es in E1. symmetry in E1, Eh. apply two_split in E1 as (P1 & P2 & -> & ->). apply two_split in Eh as (P3 & P4 & -> & ->). rewrite Es in WR. cbn in WL, WR. injection WL as <-. injection WR as <-.
    rewrite Ta in Tb. rewrite Ta' in Tb'. rewrite tl_z1 in Th. rewrite tl_z2 in Th'.
    assert (y = bond) by (rewrite <- (bdual_dual z_group y); pose proof (f_equal (fun v => nth 0 v (bk0 z_group)) Tb) as Q; cbn [nth] in Q; rewrite <- Q; apply bdual_dual).
    assert (c = bond) by (rewrite <- (bdual_dual z_group c); pose proof (f_equal (fun v => nth 0 v (bk0 z_group)) Th) as Q; cbn [nth] in Q; rewrite <- Q; apply bdual_dual).
    assert (r = spin) by exact (eq_sym (f_equal (fun v => nth 1 v (bk0 z_group)) Tb)). assert (r' = spin) by exact (eq_sym (f_equal (fun v => nth 1 v (bk0 z_group)) Tb')). assert (y' = bond) by exact (eq_sym (f_equal (fun v => nth 2 v (bk0 z_group)) Tb')). assert (c' = bond) by exact (eq_sym (f_equal (fun v => nth 2 v (bk0 z_group)) Th')). subst y c r r' y' c'.
    exists a, a', k, Da, Da', st, Dst, H. do 14 (split; [solve [auto]|]).
    destruct (@sim_h2s z_group N 100 l H e DL DH DR bond spin spin bond bond bond HDL HDH HDR TL TH TR CV st _ HS TS) as (P & DP & EP & _).
    assert (QR : forall Et U, b_update 100 eps st H l e = Ok (Et, U) -> b_rule U = q 2).
    { intros Et U EU. destruct (@any_update z_group N 100 l H e DL DH DR bond spin spin bond bond bond HDL HDH HDR TL TH TR CV eps st _ HS TS Et U EU) as (_ & _ & _ & _ & _ & Q). rewrite Q. exact RS. }
    split; [exact QR|].
    apply (@bchain_unit z_group N 100 eps Peps Zeps [] a a' [] [] zh1 zh2 [] l e l H e st P [] Da Da' [] [] dzh1 dzh2 [] el el bond bond bond bond bond spin k spin bond); try assumption; try reflexivity; try (constructor; fail).
    - apply den_zh1.
    - apply den_zh2.
    - apply (PA WH); [destruct (stored_up HS TS RS NS) as (t & E & St & _); eauto|exact EP].
    - cbn. lia.
    - cbn. lia.
    - cbn [map app]. unfold size. rewrite Sa, Sa'. apply z_hermitian.
    - apply z_improvable. intros i Hi. exact (pair_zero i Ha Ha' Ta Ta' RR Hi).
  Qed.
  Lemma z_step p s Dk : inv l e p s -> einv 100 bond bond p s Dk -> fine l e s p /\ improvable_at eps [dzh1; dzh2] el el Dk p /\ cut_fine 100 eps (n_gtb N) (ex_svd1 N) [zh1; zh2] l e (d_sites s) p.
  Proof.
    intros I V. destruct (at_state I V) as (a & a' & k & Da & Da' & st & Dst & H & -> & Es & -> & Ha & Ha' & Ta & Ta' & RR & EM & HS & TS & RS & NS & EH & QR & Et0 & U0 & DU0 & EU0 & HU0 & TU0 & NU0).
    assert (Sa : dsh Da = [1; 2; bsz z_group k]) by (rewrite (stored_shape Ha), Ta; reflexivity). assert (Sa' : dsh Da' = [bsz z_group k; 2; 1]) by (rewrite (stored_shape Ha'), Ta'; cbn [map]; rewrite sizes_dual; reflexivity).
    split; [|split].
    - intros pre b b' post hpre h h' hpost Le Re He' st' x y k1 y' x' (E1 & E2 & L1 & L2) EL ER EH' EM' Tb Tb'. rewrite Es in E1. symmetry in E1, E2. apply two_split in E1 as (-> & -> & -> & ->). apply two_split in E2 as (-> & -> & -> & ->).
      cbn in EL, ER. injection EL as <-. injection ER as <-. rewrite Ta in Tb. rewrite Ta' in Tb'. rewrite EM in EM'. injection EM' as <-. rewrite EH in EH'. injection EH' as <-.
      assert (x = bond) by (rewrite <- (bdual_dual z_group x); pose proof (f_equal (fun v => nth 0 v (bk0 z_group)) Tb) as Q; cbn [nth] in Q; rewrite <- Q; apply bdual_dual). subst x.
      assert (y = spin) by exact (eq_sym (f_equal (fun v => nth 1 v (bk0 z_group)) Tb)). assert (y' = spin) by exact (eq_sym (f_equal (fun v => nth 1 v (bk0 z_group)) Tb')). assert (x' = bond) by exact (eq_sym (f_equal (fun v => nth 2 v (bk0 z_group)) Tb')). subst y y' x'.
      split; [cbn; lia|]. split; [intros P EP; apply (PA EH); [destruct (stored_up HS TS RS NS) as (t & E & St & _); eauto|exact EP]|].
      intros Et U DU EU HU TU. split; [intros M HM; destruct (@small_sector N U DU M TU HM) as (m & n & SM & Hm & Hn); apply (@svd1_small N M m n SM Hm Hn)|]. intros NU. split; [intros u v w z; apply (@x_tidy N RE U u v w DU z HU TU NU)|].
      destruct (stored_up HU TU (QR _ _ EU) NU) as (t & -> & St & NZ). intros z [<-|[]]. exists ([0; 0; 0; 0], t), [0; 0; 0; 0]. split; [left; reflexivity|]. split; [reflexivity|]. cbn [snd]. rewrite St. split; [reflexivity|exact NZ].
    - intros pre b b' post hpre h h' hpost (E1 & E2 & L1 & L2). symmetry in E1, E2. apply two_split in E1 as (-> & -> & -> & ->). apply two_split in E2 as (-> & -> & -> & ->). unfold size. rewrite Sa, Sa'. cbn [nth].
      apply z_improvable. intros i Hi. exact (pair_zero i Ha Ha' Ta Ta' RR Hi).
    - intros U x y y' x' (pre & b & b' & post & hpre & h & h' & hpost & Le & Re & He' & st' & Et & (E1 & E2 & _ & _) & EL & ER & EH' & EM' & EU) WU TU. rewrite Es in E1. symmetry in E1, E2. apply two_split in E1 as (-> & -> & -> & ->). apply two_split in E2 as (-> & -> & -> & ->).
      cbn in EL, ER. injection EL as <-. injection ER as <-. rewrite EM in EM'. injection EM' as <-. rewrite EH in EH'. injection EH' as <-. rewrite EU0 in EU. injection EU as <- <-. rewrite TU0 in TU. injection TU as <- <- <- <-.
      split; [cbn; lia|]. split; [cbn; lia|]. split.
      + destruct (stored_up HU0 TU0 (QR _ _ EU0) NU0) as (t & -> & St & NZ). exists ([0; 0; 0; 0], t), [0; 0; 0; 0]. split; [left; reflexivity|]. cbn [snd]. rewrite St. split; [reflexivity|exact NZ].
      + intros u v w z. apply (@x_tidy N RE U0 u v w DU0 z HU0 TU0 NU0).
  Qed.
  End Run.

  Hypothesis Peps : le N rz eps.
  Hypothesis Zeps : eps <> rz.
  Variables (lf : bool) (undef : bt) (oc max_iter : nat).
  Hypothesis Hoc : oc < 2.
  Notation reach := (b_reached lf 100 eps (n_gtb N) (half N) (count N) (ex_svd1 N) (0%N : w_N) 1 10 undef [zh1; zh2] [xa N; zb] oc).
  Lemma z_well : Forall (well 100) [xa N; zb] /\ Forall (well 100) [zh1; zh2].
  Proof. split; constructor; [apply (den_well N (den_xa N))|constructor; [apply (den_well N den_zb)|constructor]|apply (den_well N den_zh1)|constructor; [apply (den_well N den_zh2)|constructor]]. Qed.
  Lemma z_dens : Forall2 den [xa N; zb] [da N; da N].
  Proof. constructor; [apply den_xa|]. constructor; [apply den_zb|constructor]. Qed.
  Lemma z_nonempty : Forall nonempty ([xa N; zb] ++ [zh1; zh2]).
  Proof. clear RE eps Peps Zeps lf undef oc max_iter Hoc. repeat (constructor; [intros k Hk; cbn in Hk; intuition (subst; cbn; lia)|]). constructor. Qed.
  Lemma z_carries : carries_only bond (q 0). Proof. repeat constructor. Qed.
  Lemma z_order : order_ok lf (q 0) = true. Proof. destruct lf; reflexivity. Qed.
  Lemma z_rule : qop z_group (q 0) (qprod z_group (map (@b_rule z_group N) [zh1; zh2])) = q 0. Proof. apply sig_eq. reflexivity. Qed.
  Lemma z_canonical : canonical [da N; da N] oc.
  Proof. destruct z_iso as (A & B). split; intros [|[|j]] M Hj E; cbn in E; try (injection E as <-; assumption); destruct j; discriminate. Qed.
  Lemma z_bedges : exists l e, run_edges lf [zh1; zh2] [xa N; zb] l e /\ den l el /\ den e el /\ tl l = [bond; bond; dual bond] /\ tl e = [dual bond; dual bond; bond] /\ qop z_group (b_rule l) (qop z_group (qprod z_group (map (@b_rule z_group N) [zh1; zh2])) (b_rule e)) = qe z_group.
  Proof.
    destruct (@bedges z_group N lf 100 [zh1; zh2] [xa N; zb] bond bond bond bond (q 0) (q 0) (q 0) (q 0) ltac:(cbn; lia) (proj1 z_well) (proj2 z_well) z_fit z_ofit z_carries z_carries z_carries z_carries z_nonempty z_order z_order z_rule) as (l & e & Dl & De & A & B & C & (-> & ->) & D & E & F).
    exists l, e. auto 10.
  Qed.
  Lemma z_reached l e k s Es p : run_edges lf [zh1; zh2] [xa N; zb] l e -> k < max_iter * sweep_size 2 -> reach k s Es -> d_oc s = Z.of_nat p ->
    fine l e s p /\ cut_fine 100 eps (n_gtb N) (ex_svd1 N) [zh1; zh2] l e (d_sites s) p /\ forall Dk, Forall2 den (d_sites s) Dk -> chain_norm Dk 1 1 = ro -> improvable_at eps [dzh1; dzh2] el el Dk p.
  Proof.
    intros RG Hk HR Ep. destruct z_bedges as (l' & e' & RG' & Hl & He & Tl & Te & HQ). pose proof (z_edges RG) as (Q1 & Q2). pose proof (z_edges RG') as (Q3 & Q4). rewrite Q1 in Q3. injection Q3 as <-. rewrite Q2 in Q4. injection Q4 as <-.
    assert (HC : hermitian_chain [dzh1; dzh2] el el (map (size 1) [da N; da N])) by exact z_hermitian.
    destruct (@reach_inv z_group N w_N lf 100 eps eps (n_gtb N) (half N) (count N) (ex_svd1 N) 0%N 1 10 undef Peps Zeps (@gtb_order N RE) (half_lower N) (half_0 N) ltac:(lia) (@svd1_gtb N RE) (fun v => @count_exact N RE v)
      [zh1; zh2] [xa N; zb] [dzh1; dzh2] [da N; da N] bond bond bond bond oc max_iter ltac:(cbn; lia) Hoc z_dens den_hs z_fit z_ofit l e el el RG Hl He Tl Te HQ HC z_canonical z_norm) with (k := k) (s := s) (Es := Es) as (p' & Dk & I & V); [|cbn [length]; lia|exact HR|].
    - intros k0 s0 Es0 p0 D0 _ _ I V. destruct (z_step (fun H st P => @P_at lf l e H st P RG) Hl He Tl Te HQ Peps Zeps I V) as (A & B & _). auto.
    - assert (p' = p) by (destruct I as (A & _); rewrite A in Ep; lia). subst p'. destruct (z_step (fun H st P => @P_at lf l e H st P RG) Hl He Tl Te HQ Peps Zeps I V) as (A & _ & B). split; [exact A|]. split; [exact B|].
      intros D F NV. assert (V' : einv 100 bond bond p s D).
      { destruct (inv_pair I) as (-> & a & a' & k1 & Es' & _). rewrite Es' in F. inversion F as [|? ? ? ? _ F1]; subst. inversion F1 as [|? ? ? ? _ F2]; subst. inversion F2; subst. split; [rewrite Es'; exact F|]. split; [constructor|]. split; [constructor|exact NV]. }
      apply (z_step (fun H st P => @P_at lf l e H st P RG) Hl He Tl Te HQ Peps Zeps I V').
  Qed.
End Ex.
