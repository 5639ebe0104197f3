(** The update of two sites when the Hamiltonian takes the state to other blocks only. *)
From Verif Require Import Base Quantity QuantityProofs FlatMap SpecFlatMap FlatMapProofs FlatMapThms Ring Index SpecIndex IndexProofs Dense BTensor SpecBTensor LegsProofs BTensorProofs BTensorThms
  BTensorArith SpecArith ArithProofs ArithThms Tensordot SpecTensordot TensordotProofs TensordotThms Bcast SpecBcast BcastMain View Chain SpecChain ChainProofs ChainThms ChainInst
  BcastProofs BcastThms ModelsBlockProofs Num Eig2 SpecEig2 Eig2Proofs Lanczos SpecLanczos LanczosVec LanczosProofs BLanczos SpecBLanczos BLanczosProofs BLanczosThms.
From Coq Require Import Field.
Set Implicit Arguments.

Section P.
  Variable G : abgroup.
  Variable N : numeric.
  Variable imax : nat.
  Notation bt := (btensor G N).
  Notation d := (dense N).
  Notation tl := (@blegs G N).
  Notation dual := (@bdual G).
  Notation den := (@stored G N imax).
  Notation bk := (bk0 G).
  Add Ring Rr : (ring_th N).
  Add Field Nf : (field_th N).
  Notation all4 := [0; 1; 2; 3].
  Notation sc := (@sc G N imax).
  Ltac small := cbn; intros; repeat match goal with H : _ \/ _ |- _ => destruct H end; try contradiction; subst; lia.
  Ltac dist := repeat (constructor; [cbn; intuition congruence|]); constructor.

  (** Full contractions: the number is stored exactly when a block is common. *)
  Lemma full_has a b Da Db : den a Da -> den b Db -> length (tl a) = 4 -> tl b = map dual (tl a) -> b_rule b = qinv G (b_rule a) ->
    exists C D, tensordot imax a b all4 all4 = Ok C /\ t_tdot Da Db all4 all4 = Ok D /\ den C D /\ tl C = [] /\ b_rule C = qe G /\ (has C [] <-> exists k, has a k /\ has b k).
  Proof.
    intros Ha Hb La Tb R. destruct (tl a) as [|t1 [|t2 [|t3 [|t4 [|? ?]]]]] eqn:Ta; try discriminate.
    destruct (@sim_tdot G N imax _ _ _ _ all4 all4 Ha Hb) as (X & DX & EX & FX & HX & TX & RX & BX); try (rewrite ?Ta, ?Tb; solve [small | dist | reflexivity | cbn; rewrite ?bdual_dual; reflexivity]).
    exists X, DX. split; [exact EX|]. split; [exact FX|]. split; [exact HX|]. rewrite Ta, Tb in TX. split; [exact TX|]. split; [rewrite RX, R; apply qop_inv_r|].
    assert (Ra : b_rank a = 4) by (rewrite <- (blegs_length (proj1 (proj1 Ha))), Ta; reflexivity). assert (Rb : b_rank b = 4) by (rewrite <- (blegs_length (proj1 (proj1 Hb))), Tb; reflexivity).
    assert (L4 : forall (T : bt) D k, den T D -> b_rank T = 4 -> has T k -> gather 0 all4 k = k).
    { intros T D k HT RT Hk. apply (@has_range G N T k (proj1 HT)) in Hk. apply in_range_length in Hk. rewrite (proj1 (proj1 (proj1 HT))), RT in Hk. destruct k as [|? [|? [|? [|? [|? ?]]]]]; try discriminate. reflexivity. }
    split.
    - intros HX0. apply BX in HX0 as (k1 & k2 & K1 & K2 & K3 & _). exists k1. rewrite (L4 _ _ _ Ha Ra K1), (L4 _ _ _ Hb Rb K2) in K3. subst k2. auto.
    - intros (k & K1 & K2). apply BX. exists k, k. split; [exact K1|]. split; [exact K2|]. split; [reflexivity|]. rewrite Ra, Rb. reflexivity.
  Qed.
  Lemma none_blocks (T : bt) D : den T D -> tl T = [] -> ~ has T [] -> b_blocks T = [] /\ dv D [] = rz /\ dsh D = [].
  Proof.
    intros HT E H. pose proof HT as (V & F & _). destruct (tl_nil N (proj1 V) E) as (R0 & L0 & _). assert (S0 : b_sbd T = []) by (rewrite <- (legs_lens (proj1 V)), L0; reflexivity). split; [|split].
    - destruct (b_blocks T) as [|[k t] r] eqn:EB; [reflexivity|]. exfalso. assert (Hk : has T k) by (apply in_assoc with t; [apply V|rewrite EB; left; reflexivity]).
      pose proof (@has_range G N T k V Hk) as Rk. rewrite S0 in Rk. destruct k; [auto|discriminate].
    - destruct F as [_ F]. specialize (F [] []). rewrite S0, L0 in F. specialize (F eq_refl eq_refl). unfold bentry in F. destruct (assoc leqb [] (b_blocks T)) eqn:A; [|exact F].
      destruct H. unfold has. congruence.
    - destruct F as [F _]. rewrite F, L0. reflexivity.
  Qed.
  Lemma x_of_none (T : bt) : b_blocks T = [] -> b_rule T = qe G -> x_of T = Ok (qe G, None).
  Proof. intros E R. unfold x_of. rewrite E, R. reflexivity. Qed.
  Notation nn x := (n_leb N rz x = true).
  (** Only the coupling is stored: the sign of the difference of the energies is lost. *)
  Lemma x_eig_none (b : N) : nn b -> b <> rz -> x_eig (qe G, None) (qe G, None) (qe G, Some (Fin b)) = Ok ((qe G, Some (Fin (ropp b))), (qe G, Some (Fin rz)), (qe G, Some (Fin ro))).
  Proof.
    intros Hb Z. assert (Q : qeqb G (qe G) (qe G) = true) by (apply qeqb_spec; reflexivity). assert (I : qinv G (qe G) = qe G) by apply qinv_e.
    assert (O : qop G (qe G) (qe G) = qe G) by apply qop_e_r. pose proof (two_neq N) as T2.
    assert (TB : rmul (two N) b <> rz) by (intros B; apply mul_zero in B as [B|B]; auto).
    assert (OB : ropp (rmul (two N) b) <> rz) by (intros B; apply TB; transitivity (ropp (ropp (rmul (two N) b)) : N); [ring|rewrite B; ring]).
    assert (F1 : f_sqrt (f_mul (Fin (rmul (two N) (two N))) (f_mul (Fin (rconj b)) (Fin b))) = Fin (rmul (two N) b)).
    { cbn [f_mul f_sqrt]. rewrite (n_nn_conj N b Hb). assert (P : nn (rmul (rmul (two N) (two N)) (rmul b b))) by (repeat apply n_nn_mul; auto; apply nn_two). rewrite P. f_equal.
      apply root_unique; [apply n_sqrt_nn, P|apply n_nn_mul; [apply nn_two|exact Hb]|]. rewrite n_sqrt_sq by exact P. ring. }
    assert (F2 : f_div (f_opp (Fin (rmul (two N) b))) (Fin (two N)) = Fin (ropp b)).
    { cbn [f_opp f_div]. rewrite (@eqb_neq N _ _ T2). f_equal. field. exact T2. }
    assert (F3 : f_sqrt (f_div (f_opp (Fin (ropp b))) (f_opp (Fin (rmul (two N) b)))) = Nan).
    { cbn [f_opp f_div]. rewrite (@eqb_neq N _ _ OB). cbn [f_sqrt]. destruct (n_leb N rz (ndiv N _ _)) eqn:L; [|reflexivity]. exfalso.
      assert (L2 : nn (ropp ro)). { replace (ropp ro : N) with (rmul (two N) (ndiv N (ropp (ropp b)) (ropp (rmul (two N) b)))); [apply n_nn_mul; [apply nn_two|exact L]|]. field. auto. }
      apply (n_one N), n_anti; [apply nn1|exact L2]. }
    unfold x_eig, minus, plus, x_add. cbn [fst snd]. rewrite Q. cbn [negb rbind]. unfold x_map, x_zip, x_conj. cbn [fst snd option_map]. rewrite I, O, Q. cbn [negb rbind fst snd option_map].
    rewrite Q. cbn [negb rbind fst snd option_map]. rewrite ?O, ?Q. cbn [negb rbind fst snd option_map]. rewrite ?O, ?Q. cbn [negb rbind fst snd option_map]. rewrite ?O, ?Q. cbn [negb rbind fst snd option_map].
    rewrite F1, F2, F3. unfold x_true, x_item, x_like. cbn [snd fst is_nan]. rewrite ?O, ?Q, orb_true_r. reflexivity.
  Qed.
  Lemma eig_none a0 a1 b Db : b_blocks a0 = [] -> b_rule a0 = qe G -> b_blocks a1 = [] -> b_rule a1 = qe G -> sc b Db -> nn (dv Db []) -> dv Db [] <> rz ->
    b_eig a0 a1 b = Ok (one G N (ropp (dv Db [])), one G N rz, one G N ro).
  Proof.
    intros B0 R0 B1 R1 Sb Hb Z. unfold b_eig. rewrite (x_of_none _ B0 R0), (x_of_none _ B1 R1), (proj1 (x_of_sc Sb)). cbn [rbind]. rewrite x_eig_none by assumption. reflexivity.
  Qed.

  Section Env.
    Variables (L H E : bt) (DL DH DE : d) (x p p' x' o o' : list nat * list G).
    Hypothesis (HL : den L DL) (HH : den H DH) (HE : den E DE).
    Hypothesis (TL : tl L = [x; o; dual x]) (TH : tl H = [dual o; p; p'; o'; dual p; dual p']) (TE : tl E = [dual x'; dual o'; x']).
    Hypothesis CV : conserving L H E.
    Notation ts := [dual x; p; p'; x'].
    Variables (eps : N) (s P Q : bt) (Ds : d).
    Hypothesis (Hs : den s Ds) (Ts : tl s = ts) (EP : hamil2site_times_state (tensordot imax) s H L E = Ok P) (EQ : hamil2site_times_state (tensordot imax) P H L E = Ok Q).
    Hypothesis (NP : forall k, ~ (has P k /\ has s k)) (NQ : forall k, ~ (has Q k /\ has P k)).
    Notation M := (heff DL DH DE).
    Notation sh := [@bsz G x; @bsz G p; @bsz G p'; @bsz G x'].
    Notation w := (apply sh M (dv Ds)).
    Lemma dfits : fits DL DH DE (@bsz G x) (@bsz G p) (@bsz G p') (@bsz G x').
    Proof. exists (@bsz G o), (@bsz G o'). rewrite (stored_shape HL), (stored_shape HH), (stored_shape HE), TL, TH, TE. repeat split. Qed.
    Lemma shape_ts T D : den T D -> tl T = ts -> dsh D = sh.
    Proof. intros HT E0. rewrite (stored_shape HT), E0. reflexivity. Qed.
    Lemma miss : le N rz eps -> eps <> rz -> le N (rmul eps eps) (sprod sh w w) ->
      exists Et U DEt DU, b_update imax eps s H L E = Ok (Et, U) /\ den Et DEt /\ den U DU /\
        dv DEt [] = ropp (n_sqrt N (sprod sh w w)) /\ (forall i, in_range sh i = true -> dv DU i = ropp (ndiv N (w i) (n_sqrt N (sprod sh w w)))) /\ energy sh M (dv DU) = rz.
    Proof.
      intros P0 Pz P2. pose proof dfits as FT.
      pose proof (@sim_h2s G N imax L H E DL DH DE x p p' x' o o' HL HH HE TL TH TE CV) as H2S.
      destruct (H2S s Ds Hs Ts) as (P' & DP & EP' & FP & HP & TP & RP & KP). rewrite EP in EP'. injection EP' as <-.
      destruct (H2S P DP HP TP) as (Q' & DQ & EQ' & FQ & HQ & TQ & RQ & KQ). rewrite EQ in EQ'. injection EQ' as <-.
      destruct (h2s_ok FT Ds (shape_ts Hs Ts)) as (C & EC & SC & VC). rewrite FP in EC. injection EC as <-.
      destruct (@sim_conj G N imax _ _ Hs) as (Hcs & Tcs & Rcs & Kcs).
      destruct (@full_has P (conj s) DP (t_conj Ds) HP Hcs) as (a0 & D0 & E0 & F0 & H0 & T0 & R0 & K0); [rewrite TP; reflexivity|rewrite Tcs, TP, Ts; reflexivity|rewrite Rcs, RP; reflexivity|].
      assert (N0 : ~ has a0 []) by (intros X; apply K0 in X as (k & X1 & X2); apply (@NP k); split; [exact X1|apply Kcs, X2]).
      destruct (none_blocks H0 T0 N0) as (B0 & V0 & S0).
      destruct (@sim_scalar_r G N imax rmul s a0 Ds D0 Hs H0 T0 R0) as (sa & Dsa & Esa & Fsa & Hsa & Tsa & Rsa & Ksa); [intros; ring|right; intros; ring|].
      assert (Nsa : forall k, ~ has sa k) by (intros k X; apply Ksa in X; tauto).
      pose proof HP as (VaP & FoP & IP). pose proof Hsa as (Vsa & _).
      assert (MM : same_meta P sa) by (apply meta_eq; [apply VaP|apply Vsa|rewrite TP, Tsa, Ts; reflexivity|rewrite RP, Rsa; reflexivity]).
      destruct (add_exact (ropp ro) VaP Vsa MM) as (psi & Epsi & Mpsi & Vpsi & Kpsi & Npsi).
      assert (Tpsi : tl psi = ts) by (rewrite <- (@meta_tl G N _ _ Mpsi); exact TP).
      assert (Rpsi : b_rule psi = b_rule s) by (destruct Mpsi as [<- _]; exact RP).
      assert (Bsa : b_blocks sa = []).
      { destruct (b_blocks sa) as [|[k t] r] eqn:EB; [reflexivity|]. destruct (Nsa k). apply in_assoc with t; [apply Vsa|rewrite EB; left; reflexivity]. }
      assert (Hpsi : den psi (d_map (fun v => rmul v (ropp ro)) DP)).
      { split; [exact Vpsi|]. destruct (same_meta_legs Mpsi) as [EL _]. destruct Mpsi as (_ & _ & ES & _). rewrite <- ES. split; [|exact IP]. destruct FoP as [F1 F2]. split; [rewrite EL; exact F1|].
        rewrite <- ES, EL. intros k j Hk Hj. rewrite Npsi, Bsa. unfold leading. rewrite Bsa. cbn [SpecFlatMap.assoc forallb d_map dv]. rewrite F2 by assumption. reflexivity. }
      assert (Kp : forall k, has psi k <-> has P k).
      { intros k. unfold has. specialize (Kpsi k). specialize (Nsa k). unfold has in Nsa. destruct (assoc leqb k (b_blocks sa)); [destruct Nsa; discriminate|].
        destruct (assoc leqb k (b_blocks psi)), (assoc leqb k (b_blocks P)); intuition (try discriminate; try congruence). }
      destruct (@sim_conj G N imax _ _ Hpsi) as (Hcp & Tcp & Rcp & Kcp).
      assert (SDP : dsh DP = sh) by exact (shape_ts HP TP).
      destruct (@full_has psi (conj psi) _ _ Hpsi Hcp) as (bb & Dbb & Ebb & Fbb & Hbb & Tbb & Rbb & Kbb); [rewrite Tpsi; reflexivity|exact Tcp|exact Rcp|].
      assert (Vbb : dv Dbb [] = sprod sh w w).
      { destruct (@tdot_sprod N (@bsz G x) (@bsz G p) (@bsz G p') (@bsz G x') (d_map (fun v => rmul v (ropp ro)) DP) (d_map (fun v => rmul v (ropp ro)) DP) SDP SDP) as (s0 & Es0 & _ & Vs0). rewrite Fbb in Es0. injection Es0 as <-. rewrite Vs0.
        apply sumf_ext. intros i Hi. apply idxs_In in Hi. cbn [d_map dv]. rewrite VC by exact Hi. rewrite rconj_mul, conj_opp, conj1. ring. }
      set (W := sprod sh w w) in *. assert (HW : nn W) by (apply sprod_nn).
      assert (WZ : W <> rz).
      { intros Wz. rewrite Wz in P2. unfold le in P2. rewrite n_le_sub in P2. assert (Y : rmul eps eps = rz) by (apply n_anti; [apply n_nn_mul; exact P0|]; replace (ropp (rmul eps eps)) with (rsub rz (rmul eps eps)) by (unfold rsub; ring); exact P2).
        apply mul_zero in Y as [Y|Y]; auto. }
      assert (Pbb : has bb []).
      { destruct (assoc leqb [] (b_blocks bb)) as [t|] eqn:A; [unfold has; congruence|]. exfalso. apply WZ. rewrite <- Vbb. apply (@none_blocks bb Dbb Hbb Tbb). unfold has. congruence. }
      assert (Sb : sc (bt_elementwise (n_sqrt N) bb) (d_map (n_sqrt N) Dbb)).
      { destruct (@sim_map G N imax (n_sqrt N) bb Dbb Hbb (sqrt_0 N)) as (M1 & M2 & M3). split; [exact M1|]. split; [rewrite M2; exact Tbb|]. split; [rewrite M3; exact Rbb|]. apply has_map, Pbb. }
      set (b := bt_elementwise (n_sqrt N) bb) in *. set (Db := d_map (n_sqrt N) Dbb) in *.
      assert (Vb : dv Db [] = n_sqrt N W) by (unfold Db; cbn [d_map dv]; rewrite Vbb; reflexivity).
      assert (Hr : nn (n_sqrt N W)) by (apply n_sqrt_nn, HW). assert (Zr : n_sqrt N W <> rz) by (intros X; apply WZ; rewrite <- (n_sqrt_sq N W HW), X; ring).
      pose proof Sb as (Hb & Tb & Rb & Pb). assert (SD : dsh Db = []) by (rewrite (stored_shape Hb), Tb; reflexivity).
      assert (EL : t_large eps Db = Ok true).
      { unfold t_large, t_item. cbn [d_map dsh dv]. rewrite SD. cbn [map]. rewrite Vb. rewrite nabs_nn by exact Hr. change (prod_list [] =? 1) with true. cbn [rbind]. f_equal.
        apply le_nn. apply nn_factor with (radd (n_sqrt N W) eps); [apply n_nn_add; auto|intros X; apply Zr, (@nn_sum_zero N _ _ Hr P0 X)|]. replace (rmul (radd (n_sqrt N W) eps) (rsub (n_sqrt N W) eps)) with (rsub (rmul (n_sqrt N W) (n_sqrt N W)) (rmul eps eps)) by (unfold rsub; ring). rewrite n_sqrt_sq by exact HW. exact (proj1 (@le_nn N _ _) P2). }
      destruct (@sim_div G N imax psi b _ Db Hpsi Hb Tb Rb Pb) as (psi2 & Dp2 & E2 & F2 & H2 & T2 & R2 & K3). rewrite Tpsi in T2. rewrite Rpsi in R2.
      destruct (@zip_scalar N (@bsz G x) (@bsz G p) (@bsz G p') (@bsz G x') true (ndiv N) (d_map (fun v => rmul v (ropp ro)) DP) Db SDP SD) as (Y & EY & _ & VY). rewrite F2 in EY. injection EY as <-.
      destruct (H2S psi2 Dp2 H2 T2) as (hp & Dhp & Ehp & Fhp & Hhp & Thp & Rhp & Khp).
      assert (Khq : forall k, has hp k -> has Q k).
      { apply (hkeys_mono Khp KQ); [rewrite <- (blegs_length (proj1 (proj1 H2))), <- (blegs_length (proj1 (proj1 HP))), T2, TP; reflexivity|]. intros k X. apply Kp, K3, X. }
      destruct (h2s_ok FT Dp2 (shape_ts H2 T2)) as (Z & EZ & _ & VZ). rewrite Fhp in EZ. injection EZ as <-.
      destruct (@sim_conj G N imax _ _ H2) as (Hc2 & Tc2 & Rc2 & Kc2).
      destruct (@full_has (conj psi2) hp _ _ Hc2 Hhp) as (a1 & D1 & E1 & F1 & H1 & T1 & R1 & K1); [rewrite Tc2, T2; reflexivity|rewrite Tc2, dual_tl, T2, Thp; reflexivity|rewrite Rc2, qinv_inv, Rhp; reflexivity|].
      assert (N1 : ~ has a1 []) by (intros X; apply K1 in X as (k & X1 & X2); apply (@NQ k); split; [apply Khq, X2|apply Kp, K3, Kc2, X1]).
      destruct (none_blocks H1 T1 N1) as (B1 & V1 & S1).
      assert (EN : energy sh M (dv Dp2) = rz).
      { destruct (@tdot_sprod' N (@bsz G x) (@bsz G p) (@bsz G p') (@bsz G x') Dp2 Dhp (shape_ts H2 T2) (shape_ts Hhp Thp)) as (s0 & Es0 & _ & Vs0). rewrite F1 in Es0. injection Es0 as <-. rewrite V1 in Vs0. rewrite Vs0.
        apply sumf_ext. intros i Hi. apply idxs_In in Hi. rewrite VZ by exact Hi. reflexivity. }
      pose proof (@eig_none a0 a1 b Db B0 R0 B1 R1 Sb) as EE. rewrite Vb in EE. specialize (EE Hr Zr).
      destruct (one_sc G N imax rz) as (Ho & To & Ro & Po). destruct (one_sc G N imax ro) as (Hn & Tn & Rn & Pn). destruct (one_sc G N imax (ropp (n_sqrt N W))) as (He & Te & _ & _).
      destruct (@sim_scalar_l G N imax rmul s _ Ds _ Hs Ho To Ro) as (os & Dos & Eos & Fos & Hos & Tos & Ros & _); [rewrite Ts; cbn; lia|intros; ring|intros; ring|].
      destruct (@sim_scalar_l G N imax rmul psi2 _ Dp2 _ H2 Hn Tn Rn) as (np & Dnp & Enp & Fnp & Hnp & Tnp & Rnp & _); [rewrite T2; cbn; lia|intros; ring|intros; ring|].
      destruct (@sim_plus G N imax os np Dos Dnp Hos Hnp) as (U & DU & EU & FU & HU & TU & RU & _); [rewrite Tos, Tnp, T2, Ts; reflexivity|rewrite Ros, Rnp, R2; reflexivity|].
      assert (VU : forall i, in_range sh i = true -> dv DU i = dv Dp2 i).
      { destruct (@scalar_zip N (@bsz G x) (@bsz G p) (@bsz G p') (@bsz G x') rmul Ds (mkD [] (fun _ => rz)) (shape_ts Hs Ts) eq_refl) as (Z1 & W1 & _ & W2). rewrite Fos in W1. injection W1 as <-.
        destruct (@scalar_zip N (@bsz G x) (@bsz G p) (@bsz G p') (@bsz G x') rmul Dp2 (mkD [] (fun _ => ro)) (shape_ts H2 T2) eq_refl) as (Z2 & W3 & _ & W4). rewrite Fnp in W3. injection W3 as <-.
        destruct (@LanczosProofs.zip_same N (@bsz G x) (@bsz G p) (@bsz G p') (@bsz G x') false radd Dos Dnp) as (Z3 & W5 & _ & W6); [apply (shape_ts Hos); rewrite Tos; exact Ts|apply (shape_ts Hnp); rewrite Tnp; exact T2|]. rewrite FU in W5. injection W5 as <-.
        intros i Hi. rewrite W6, W2, W4 by exact Hi. cbn [dv]. ring. }
      exists (one G N (ropp (n_sqrt N W))), U, (mkD [] (fun _ => ropp (n_sqrt N W))), DU. split; [|split; [exact He|split; [exact HU|split; [reflexivity|split]]]].
      - unfold b_update, two_sites_update, one_step_lanczos. rewrite EP. cbn [rbind]. rewrite E0. cbn [rbind]. unfold b_mul at 1. rewrite Esa. cbn [rbind]. unfold b_minus_. rewrite Epsi. cbn [rbind]. rewrite Ebb. cbn [rbind].
        fold b. rewrite (@sim_large G N imax eps b Db Sb), EL. cbn [rbind]. rewrite E2. cbn [rbind]. rewrite Ehp. cbn [rbind]. rewrite E1. cbn [rbind]. rewrite EE. cbn [rbind]. unfold b_mul. rewrite Eos. cbn [rbind]. rewrite Enp. cbn [rbind]. rewrite EU. reflexivity.
      - intros i Hi. rewrite VU, VY, Vb by exact Hi. cbn [d_map dv]. rewrite VC by exact Hi. unfold ndiv. ring.
      - rewrite <- EN. apply sumf_ext. intros i Hi. apply idxs_In in Hi. rewrite VU by exact Hi. f_equal. apply sumf_ext. intros j Hj. apply idxs_In in Hj. rewrite VU by exact Hj. reflexivity.
    Qed.
    Lemma miss_all : (forall k, ~ has P k) -> b_update imax eps s H L E = Throw TorchError.
    Proof.
      intros NO. pose proof (@sim_h2s G N imax L H E DL DH DE x p p' x' o o' HL HH HE TL TH TE CV) as H2S.
      destruct (H2S s Ds Hs Ts) as (P' & DP & EP' & FP & HP & TP & RP & KP). rewrite EP in EP'. injection EP' as <-.
      destruct (@sim_conj G N imax _ _ Hs) as (Hcs & Tcs & Rcs & Kcs).
      destruct (@full_has P (conj s) DP (t_conj Ds) HP Hcs) as (a0 & D0 & E0 & F0 & H0 & T0 & R0 & K0); [rewrite TP; reflexivity|rewrite Tcs, TP, Ts; reflexivity|rewrite Rcs, RP; reflexivity|].
      assert (N0 : ~ has a0 []) by (intros X; apply K0 in X as (k & X1 & X2); exact (NO k X1)).
      destruct (none_blocks H0 T0 N0) as (B0 & _).
      destruct (@sim_scalar_r G N imax rmul s a0 Ds D0 Hs H0 T0 R0) as (sa & Dsa & Esa & Fsa & Hsa & Tsa & Rsa & Ksa); [intros; ring|right; intros; ring|].
      destruct (@sim_minus G N imax P sa DP Dsa HP Hsa) as (psi & Dp & Epsi & Fpsi & Hpsi & Tpsi & Rpsi & Kpsi); [rewrite TP, Tsa, Ts; reflexivity|rewrite RP, Rsa; reflexivity|intros k X; destruct (NO k X)|].
      assert (Np : forall k, ~ has psi k) by (intros k X; apply Kpsi in X as [X|X]; [exact (NO k X)|apply Ksa in X; tauto]).
      rewrite TP in Tpsi. rewrite RP in Rpsi.
      destruct (@sim_conj G N imax _ _ Hpsi) as (Hcp & Tcp & Rcp & Kcp).
      destruct (@full_has psi (conj psi) _ _ Hpsi Hcp) as (bb & Dbb & Ebb & Fbb & Hbb & Tbb & Rbb & Kbb); [rewrite Tpsi; reflexivity|exact Tcp|exact Rcp|].
      assert (Nb : ~ has bb []) by (intros X; apply Kbb in X as (k & X1 & _); exact (Np k X1)).
      destruct (none_blocks Hbb Tbb Nb) as (Bb & _).
      destruct (H2S psi Dp Hpsi Tpsi) as (hp & Dhp & Ehp & Fhp & Hhp & Thp & Rhp & Khp).
      destruct (@full_has (conj psi) hp _ _ Hcp Hhp) as (a1 & D1 & E1 & F1 & H1 & T1 & R1 & K1); [rewrite Tcp, Tpsi; reflexivity|rewrite Tcp, dual_tl, Tpsi, Thp; reflexivity|rewrite Rcp, qinv_inv, Rhp; reflexivity|].
      assert (N1 : ~ has a1 []) by (intros X; apply K1 in X as (k & X1 & _); apply (Np k), Kcp, X1).
      destruct (none_blocks H1 T1 N1) as (B1 & _).
      unfold b_update, two_sites_update, one_step_lanczos. rewrite EP. cbn [rbind]. rewrite E0. cbn [rbind]. unfold b_mul at 1. rewrite Esa. cbn [rbind]. rewrite Epsi. cbn [rbind]. rewrite Ebb. cbn [rbind].
      unfold b_large at 1, item, bt_elementwise at 1 2. cbn [map_blocks with_blocks b_blocks]. rewrite Bb. cbn [map rbind]. rewrite (eqb_refl N). cbn [negb rbind]. rewrite Ehp. cbn [rbind]. rewrite E1. cbn [rbind].
      unfold b_eig. rewrite (x_of_none _ B0 R0), (x_of_none _ B1 R1). cbn [rbind]. rewrite x_of_none; [|unfold bt_elementwise; cbn [map_blocks with_blocks b_blocks]; rewrite Bb; reflexivity|exact Rbb]. cbn [rbind].
      assert (QQ : qeqb G (qe G) (qe G) = true) by (apply qeqb_spec; reflexivity).
      assert (O : qop G (qe G) (qe G) = qe G) by apply qop_e_r. assert (I : qinv G (qe G) = qe G) by apply qinv_e.
      unfold x_eig, minus, plus, x_add, x_map, x_zip, x_conj. cbn [fst snd option_map]. do 6 (rewrite ?I, ?O, ?QQ; cbn [negb rbind fst snd option_map]). reflexivity.
    Qed.
  End Env.
End P.
