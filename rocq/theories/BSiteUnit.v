(** The pair that the update of two sites of block tensors gives is normalized. *)
From Verif Require Import Base Quantity QuantityProofs FlatMap SpecFlatMap FlatMapProofs FlatMapThms Ring Index SpecIndex IndexProofs Dense BTensor SpecBTensor LegsProofs BTensorProofs BTensorThms
  BTensorArith SpecArith ArithProofs ArithThms Tensordot SpecTensordot TensordotProofs TensordotThms Bcast SpecBcast BcastProofs BcastThms BcastMain View Chain SpecChain ChainProofs ChainThms ChainInst ChainEnd
  ModelsBlockProofs SpecMove SpecEdges SpecSector SpecSvd BSvd SvdDense MoveOc MoveProofs MoveInst Truncate SpecTruncate TruncateProofs BTrunc SpecBTrunc BTruncProofs BTruncThms BTruncMain CoalesceProofs
  Num Eig2 SpecEig2 Eig2Proofs Lanczos SpecLanczos LanczosVec LanczosProofs BLanczos SpecBLanczos BLanczosProofs BLanczosThms BLanczosMiss BLanczosMain
  SiteUpdate SpecSiteUpdate ChainNorm ChainEnergy SiteUpdateProofs SiteUpdateThms BSiteUpdate SpecBSiteUpdate BSvdCut BSiteUpdateThms BSiteChain.
Set Implicit Arguments.

Section C.
  Variable G : abgroup.
  Variable N : numeric.
  Variable W : weights.
  Variable imax : nat.
  Notation bt := (btensor G N).
  Notation d := (dense N).
  Notation tl := (@blegs G N).
  Notation dual := (@bdual G).
  Notation den := (@stored G N imax).
  Notation bsz := (@bsz G).
  Notation idk := (fun k : nat => k).
  Notation fit := (mps_fit tl dual).
  Notation ofit := (mpo_fit tl dual).
  Notation leg := (list nat * list G)%type.
  Variable eps : N.
  Hypothesis Peps : le N rz eps.
  Hypothesis Zeps : eps <> rz.
  Ltac small := intros ? [<-|[]]; cbn; lia.
  Ltac dist := repeat (constructor; [cbn; intuition congruence|]); constructor.

  Lemma bsite_unit (a a' H L E s P : bt) (Da Da' DH DL DE : d) (x p k p' x' o o' : leg) :
    den a Da -> den a' Da' -> den H DH -> den L DL -> den E DE ->
    tl L = [x; o; dual x] -> tl a = [dual x; p; k] -> tl a' = [dual k; p'; x'] -> tl H = [dual o; p; p'; o'; dual p; dual p'] -> tl E = [dual x'; dual o'; x'] -> conserving L H E ->
    merge (tensordot imax) a a' = Ok s -> hamil2site_times_state (tensordot imax) s H L E = Ok P -> reached P s ->
    length (fst x) * length (fst p) <= imax -> (Z.of_nat (bsz p' * bsz x') <= 2 ^ 63)%Z ->
    hermitian_kernel [bsz x; bsz p; bsz p'; bsz x'] (heff DL DH DE) ->
    sprod [bsz x; bsz p; bsz p'; bsz x'] (pair_amp Da Da') (pair_amp Da Da') = ro ->
    improvable [bsz x; bsz p; bsz p'; bsz x'] (heff DL DH DE) eps (pair_amp Da Da') ->
    exists Et U DU, b_update imax eps s H L E = Ok (Et, U) /\ den U DU /\ tl U = [dual x; p; p'; x'] /\ sprod [bsz x; bsz p; bsz p'; bsz x'] (dv DU) (dv DU) = ro.
  Proof.
    intros Ha Ha' HH HL HE TL Ta Ta' TH TE CV EM EP RE IS HB HM NV IMP.
    set (sh := [bsz x; bsz p; bsz p'; bsz x']) in *.
    assert (Sa : dsh Da = [bsz x; bsz p; bsz k]) by (rewrite (stored_shape Ha), Ta; cbn [map]; rewrite sizes_dual; reflexivity).
    assert (Sa' : dsh Da' = [bsz k; bsz p'; bsz x']) by (rewrite (stored_shape Ha'), Ta'; cbn [map]; rewrite sizes_dual; reflexivity).
    destruct (@stored_tdot_rule G N imax a a' Da Da' [2] [0] Ha Ha') as (s' & ES & TS & HS & RS); try (rewrite ?Ta, ?Ta'; solve [intros ? [<-|[]]; cbn; lia | cbn; lia | dist | reflexivity | cbn; rewrite ?bdual_dual; reflexivity]).
    unfold merge in EM. rewrite EM in ES. injection ES as <-. rewrite Ta, Ta' in TS. change (tl s = [dual x; p; p'; x']) in TS.
    set (Ds := d_tdot Da Da' [2] [0]) in *. pose proof (@shape_ts G N imax x p p' x' s Ds HS TS) as SS. fold sh in SS.
    assert (VS : forall i, in_range sh i = true -> dv Ds i = pair_amp Da Da' i).
    { intros i Hi. apply in_range4 in Hi as (i0 & i1 & i2 & i3 & -> & H0 & H1 & H2 & H3). unfold Ds. rewrite (@tdot_33 N Da Da' _ _ _ _ _ i0 i1 i2 i3 Sa Sa'). symmetry. apply pair_val with (y := bsz x'); [unfold size; rewrite Sa; reflexivity|unfold size; rewrite Sa'; reflexivity|exact H3]. }
    pose proof (@sim_update G N imax L H E DL DH DE x p p' x' o o' HL HH HE TL TH TE CV eps s P Ds HS TS EP RE) as SO.
    pose proof (@dfits G N imax L H E DL DH DE x p p' x' o o' HL HH HE TL TH TE) as FT.
    destruct (@update_good N DL DH DE (bsz x) (bsz p) (bsz p') (bsz x') eps Ds FT SS HM) as (DEt & DU & EU & SU & NU & EnU & LeU); auto.
    { fold sh. rewrite <- NV. apply sprod_ext; exact VS. }
    { eapply improvable_ext; [intros; reflexivity| |exact IMP]. intros i Hi. symmetry. apply VS, Hi. }
    fold sh in SU, NU, EnU, LeU. rewrite EU in SO. unfold same_outcome in SO. destruct (b_update imax eps s H L E) as [[Et U]|e|] eqn:EB; [|contradiction|contradiction]. cbn [fst snd] in SO. destruct SO as (A1 & A2 & A3 & A4 & A5).
    rewrite TS in A4. pose proof A2 as (VU & FU & IU).
    exists Et, U, DU. auto.
  Qed.
  Lemma bchain_unit (pre : list bt) (a a' : bt) (post hpre : list bt) (h h' : bt) (hpost : list bt) (l e L H E s P : bt)
      (Dpre : list d) (Da Da' : d) (Dpost Dhpre : list d) (Dh Dh' : d) (Dhpost : list d) (Dl De : d) (x0 o0 x1 o1 x p k p' x' : leg) :
    Forall2 den pre Dpre -> den a Da -> den a' Da' -> Forall2 den post Dpost -> Forall2 den hpre Dhpre -> den h Dh -> den h' Dh' -> Forall2 den hpost Dhpost -> den l Dl -> den e De ->
    tl l = [x0; o0; dual x0] -> tl e = [dual x1; dual o1; x1] -> length hpre = length pre -> fit (pre ++ [a; a'] ++ post) x0 x1 -> ofit (hpre ++ [h; h'] ++ hpost) (pre ++ [a; a'] ++ post) (pre ++ [a; a'] ++ post) o0 o1 ->
    tl a = [dual x; p; k] -> tl a' = [dual k; p'; x'] ->
    left_envs (tensordot imax) (@conj G N) hpre pre l = Ok L -> right_envs (tensordot imax) (@conj G N) hpost post e = Ok E -> two_sites_hamil (tensordot imax) b_perm h h' = Ok H -> conserving L H E ->
    merge (tensordot imax) a a' = Ok s -> hamil2site_times_state (tensordot imax) s H L E = Ok P -> reached P s ->
    length (fst x) * length (fst p) <= imax -> (Z.of_nat (bsz p' * bsz x') <= 2 ^ 63)%Z ->
    Forall (@left_isometry N) Dpre -> Forall (@right_isometry N) Dpost -> hermitian_chain (Dhpre ++ [Dh; Dh'] ++ Dhpost) Dl De (map (@size N 1) (Dpre ++ [Da; Da'] ++ Dpost)) ->
    chain_norm (Dpre ++ [Da; Da'] ++ Dpost) (bsz x0) (bsz x1) = ro ->
    improvable [bsz x; bsz p; bsz p'; bsz x'] (local_matrix Dpre Dhpre Dh Dh' Dpost Dhpost Dl De) eps (pair_amp Da Da') ->
    exists Et U DU, b_update imax eps s H L E = Ok (Et, U) /\ den U DU /\ tl U = [dual x; p; p'; x'] /\ sprod [bsz x; bsz p; bsz p'; bsz x'] (dv DU) (dv DU) = ro.
  Proof.
    intros Hpre Ha Ha' Hpost Hhpre Hh Hh' Hhpost Hl He Tl Te HLn F O Ta Ta' EL EE EH CV EM EP RE IS HB IL IR HC HN HI.
    assert (HF : Forall2 den (pre ++ [a; a'] ++ post) (Dpre ++ [Da; Da'] ++ Dpost)) by (apply Forall2_app; [exact Hpre|]; apply Forall2_app; [auto|exact Hpost]).
    assert (HHF : Forall2 den (hpre ++ [h; h'] ++ hpost) (Dhpre ++ [Dh; Dh'] ++ Dhpost)) by (apply Forall2_app; [exact Hhpre|]; apply Forall2_app; [auto|exact Hhpost]).
    assert (Sa : dsh Da = [bsz x; bsz p; bsz k]) by (rewrite (stored_shape Ha), Ta; cbn [map]; rewrite sizes_dual; reflexivity).
    assert (Sa' : dsh Da' = [bsz k; bsz p'; bsz x']) by (rewrite (stored_shape Ha'), Ta'; cbn [map]; rewrite sizes_dual; reflexivity).
    assert (Sl : dsh Dl = [bsz x0; bsz o0; bsz x0]) by (rewrite (stored_shape Hl), Tl; cbn [map]; rewrite sizes_dual; reflexivity).
    assert (Se : dsh De = [bsz x1; bsz o1; bsz x1]) by (rewrite (stored_shape He), Te; cbn [map]; rewrite !sizes_dual; reflexivity).
    assert (HLD : length Dhpre = length Dpre) by (rewrite <- (den_length N Hhpre), <- (den_length N Hpre); exact HLn).
    (* the dimensions of the blocks *)
    apply mps_fit_app in F as (z & F1 & (s1 & k1 & E1 & (s2 & k2 & E2 & F2))). rewrite Ta in E1. rewrite Ta' in E2.
    assert (z = x) by (apply (f_equal (hd (dual x))) in E1; cbn in E1; rewrite <- (@bdual_dual G z), <- E1; rewrite bdual_dual; reflexivity). subst z. injection E1 as _ <-. injection E2 as _ <-.
    pose proof O as O'. apply ofit_parts in O' as (q & O1 & O'); try (symmetry; exact HLn). destruct O' as (r & m & m' & Eh & Em & Em' & (q' & m2 & m2' & Eh' & Em2 & Em2' & O2)).
    rewrite Ta in Em, Em'. rewrite Ta' in Em2, Em2'. cbn in Em, Em', Em2, Em2'. injection Em as <-. injection Em' as <-. injection Em2 as <-. injection Em2' as <-.
    (* the environments and their dense forms *)
    destruct (@b_left_envs G N imax hpre pre l x0 o0 x q Dpre Dhpre Dl Hpre Hhpre Hl Tl F1 O1) as (L' & EL' & TL & HL). rewrite EL in EL'. injection EL' as <-.
    destruct (@b_right_envs G N imax hpost post e x' q' x1 o1 Dpost Dhpost De Hpost Hhpost He Te F2 O2) as (E' & EE' & TE & HE). rewrite EE in EE'. injection EE' as <-.
    destruct (@b_two_sites G N imax h [h'] q q' Dh [Dh'] Hh) as (rr & Err & Lrr & Prr); [auto|exists p, r, (dual p); split; [exact Eh|]; exists p', q', (dual p'); split; [exact Eh'|reflexivity]|].
    cbn in Err. rewrite EH in Err. cbn in Err. injection Err as <-. destruct (Prr 0 H h h' Dh Dh' eq_refl eq_refl eq_refl eq_refl eq_refl) as (HH & TH). rewrite Eh, Eh' in TH. cbn in TH. clear Prr Lrr.
    pose proof (dense_fit N Hpre _ _ F1) as DF1. pose proof (dense_fit N Hpost _ _ F2) as DF2. pose proof (dense_ofit N Hhpre _ _ Hpre Hpre O1) as DO1. pose proof (dense_ofit N Hhpost _ _ Hpost Hpost O2) as DO2.
    assert (Sh : dsh Dh = [bsz q; bsz p; bsz r; bsz p]) by (rewrite (stored_shape Hh), Eh; cbn [map]; rewrite !sizes_dual; reflexivity).
    assert (Sh' : dsh Dh' = [bsz r; bsz p'; bsz q'; bsz p']) by (rewrite (stored_shape Hh'), Eh'; cbn [map]; rewrite !sizes_dual; reflexivity).
    destruct (@d_left_envs N Dhpre Dpre Dl _ _ _ _ Sl DF1 DO1) as (Le & ELe & SLe & VLe). destruct (@d_right_envs N Dhpost Dpost De _ _ _ _ Se DF2 DO2) as (Re & ERe & SRe & VRe).
    destruct (@hamil_ok N Dh Dh' _ _ _ _ _ Sh Sh') as (Hd & EHd & SHd & VHd).
    apply (@den_deq G N imax L _ Le) in HL; [|apply (@deq3 N _ _ (bsz x) (bsz q) (bsz x)); [rewrite TL; cbn [map dsh]; rewrite sizes_dual; reflexivity|exact SLe|]; intros i j c Hi; rewrite VLe by (rewrite SLe; exact Hi); reflexivity].
    apply (@den_deq G N imax E _ Re) in HE; [|apply (@deq3 N _ _ (bsz x') (bsz q') (bsz x')); [rewrite TE; cbn [map dsh]; rewrite !sizes_dual; reflexivity|exact SRe|]; intros i j c Hi; rewrite VRe by (rewrite SRe; exact Hi); reflexivity].
    apply (@den_deq G N imax H _ Hd) in HH; [|split; [rewrite SHd; cbn [two_site dsh]; unfold size; rewrite Sh, Sh'; reflexivity|]; intros i Hi; rewrite VHd; [reflexivity|]; rewrite SHd; cbn [two_site dsh] in Hi; unfold size in Hi; rewrite Sh, Sh' in Hi; exact Hi].
    rewrite (@chain_sizes N Dpre Dpost _ _ _ _ Da Da' _ Sa Sa') in HC.
    pose proof (@heff_hermitian N _ _ _ _ _ _ _ _ _ _ _ _ _ _ _ _ _ _ _ Sl Se DF1 DF2 DO1 DO2 Sh Sh' Le Hd Re ELe ERe EHd HC) as HM.
    pose proof (@heff_local N _ _ _ _ _ _ _ _ _ _ _ _ _ _ _ _ _ _ _ Sl Se DF1 DF2 DO1 DO2 Sh Sh' Le Hd Re ELe ERe EHd) as HLM.
    rewrite (@norm_centre N _ _ _ _ _ _ _ _ _ _ _ DF1 Sa Sa' DF2 IL IR) in HN.
    refine (@bsite_unit a a' H L E s P Da Da' Hd Le Re x p k p' x' q q' Ha Ha' HH HL HE TL Ta Ta' TH TE CV EM EP RE IS HB HM HN _). eapply improvable_ext; [exact HLM| |exact HI]. reflexivity.
  Qed.
End C.
