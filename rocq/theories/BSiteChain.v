(** The update of two sites in a chain of block tensors. *)
From Verif Require Import Base Quantity QuantityProofs FlatMap SpecFlatMap FlatMapProofs FlatMapThms Ring Index SpecIndex IndexProofs Dense BTensor SpecBTensor LegsProofs BTensorProofs BTensorThms
  BTensorArith SpecArith Tensordot SpecTensordot TensordotThms View Chain SpecChain ChainProofs ChainThms ChainInst ChainEnd
  SpecMove SpecEdges SpecSector SpecSvd BSvd MoveOc MoveInst Truncate SpecTruncate TruncateProofs BTrunc SpecBTrunc BTruncProofs
  Num SpecEig2 Lanczos SpecLanczos LanczosVec LanczosProofs BLanczos SpecBLanczos
  SiteUpdate SpecSiteUpdate ChainNorm ChainEnergy SiteUpdateProofs SiteUpdateThms BSiteUpdate SpecBSiteUpdate BSiteUpdateThms.
Set Implicit Arguments.

Section C.
  Variable G : abgroup.
  Variable N : numeric.
  Variable W : weights.
  Variable imax : nat.
  Notation bt := (btensor G N).
  Notation d := (dense N).
  Notation tl := (@blegs G N).
  Notation dual := (@bdual G).
  Notation den := (@stored G N imax).
  Notation bsz := (@bsz G).
  Notation idk := (fun k : nat => k).
  Notation fit := (mps_fit tl dual).
  Notation ofit := (mpo_fit tl dual).
  Notation leg := (list nat * list G)%type.

  (** Dense forms of chains that fit together, fit together. *)
  Lemma dense_fit (a : list bt) Da : Forall2 den a Da -> forall x y, fit a x y -> mps_fit (@dsh N) idk Da (bsz x) (bsz y).
  Proof.
    induction 1 as [|A D a Da HA HF IH]; intros x y F; [cbn in *; subst; reflexivity|]. destruct F as (s & k & E & F). exists (bsz s), (bsz k). split; [|apply IH, F].
    rewrite (stored_shape HA), E. cbn [map]. rewrite sizes_dual. reflexivity.
  Qed.
  Lemma dense_phys (A : bt) D n l : den A D -> nth_error (tl A) n = Some l -> nth_error (dsh D) n = Some (bsz l).
  Proof. intros HA E. rewrite (stored_shape HA). apply map_nth_error, E. Qed.
  Lemma dense_ofit (h : list bt) Dh : Forall2 den h Dh -> forall a b Da Db x y, Forall2 den a Da -> Forall2 den b Db -> ofit h a b x y -> mpo_fit (@dsh N) idk Dh Da Db (bsz x) (bsz y).
  Proof.
    induction 1 as [|A D h Dh HA HF IH]; intros a b Da Db x y Ha Hb F; inversion Ha; inversion Hb; subst; cbn [mpo_fit] in *; try contradiction; [subst; reflexivity|]. destruct F as (k & p & p' & E & E1 & E2 & F).
    exists (bsz k), (bsz p), (bsz p'). split; [rewrite (stored_shape HA), E; cbn [map]; rewrite !sizes_dual; reflexivity|]. split; [eapply dense_phys; eauto|]. split; [eapply dense_phys; eauto|]. eapply IH; eauto.
  Qed.
  Lemma ofit_parts (h1 h2 : list bt) : forall a1 a2 b1 b2 u w, length a1 = length h1 -> length b1 = length h1 ->
    ofit (h1 ++ h2) (a1 ++ a2) (b1 ++ b2) u w -> exists v, ofit h1 a1 b1 u v /\ ofit h2 a2 b2 v w.
  Proof.
    induction h1 as [|A h1 IH]; intros [|s a1] a2 [|s' b1] b2 u w L1 L2 H; try discriminate; cbn [app mpo_fit] in *; [eauto|].
    destruct H as (k & m & m' & E & E1 & E2 & H). apply IH in H as (v & H1 & H2); [|cbn in *; lia..]. exists v. split; [exists k, m, m'; auto|exact H2].
  Qed.
  Lemma den_length (a : list bt) Da : Forall2 den a Da -> length a = length Da. Proof. induction 1; cbn; lia. Qed.
  Lemma den_deq (A : bt) D D' : den A D -> deq D D' -> den A D'.
  Proof. intros (V & F & I) Q. split; [exact V|]. split; [|exact I]. eapply dense_form_deq; [apply V|exact F|exact Q]. Qed.
  Lemma deq3 (D D' : d) x y z : dsh D = [x; y; z] -> dsh D' = [x; y; z] -> (forall i j k, in_range [x; y; z] [i; j; k] = true -> dv D [i; j; k] = dv D' [i; j; k]) -> deq D D'.
  Proof.
    intros S S' V. split; [congruence|]. intros i Hi. rewrite S in Hi. assert (Hi' := Hi). destruct i as [|i0 [|i1 [|i2 [|? ?]]]]; cbn in Hi'; rewrite ?andb_false_r in Hi'; try discriminate. apply V, Hi.
  Qed.

  Variable eps : N.
  Variable gtb : N -> N -> bool.
  Variable lower : N -> N.
  Variable wt : N -> W.
  Variable dsvd : d -> d * d * d.
  Variable thr : W.
  Variables mn mx : Z.
  Hypothesis Peps : le N rz eps.
  Hypothesis Zeps : eps <> rz.
  Hypothesis HO : total_order gtb.
  Hypothesis low : forall x, gtb x rz = true -> gtb x (lower x) = true.
  Hypothesis low0 : lower rz = rz.
  Hypothesis Hmn : (1 <= mn <= mx)%Z.
  Notation vals := (fun M => snd (fst (dsvd M))).
  Hypothesis H_thin : forall M, (exists m n, dsh M = [m; n]) -> thin M (dsvd M) /\ real_entries (vals M) /\ SpecBTrunc.descending gtb (entries (vals M)) /\ forall x, In x (entries (vals M)) -> gtb rz x = false.

  Theorem bchain_ok (fwd : bool) (pre : list bt) (a a' : bt) (post hpre : list bt) (h h' : bt) (hpost : list bt) (l e L H E s P : bt)
      (Dpre : list d) (Da Da' : d) (Dpost Dhpre : list d) (Dh Dh' : d) (Dhpost : list d) (Dl De : d) (x0 o0 x1 o1 x p k p' x' : leg) :
    Forall2 den pre Dpre -> den a Da -> den a' Da' -> Forall2 den post Dpost -> Forall2 den hpre Dhpre -> den h Dh -> den h' Dh' -> Forall2 den hpost Dhpost -> den l Dl -> den e De ->
    tl l = [x0; o0; dual x0] -> tl e = [dual x1; dual o1; x1] -> length hpre = length pre -> fit (pre ++ [a; a'] ++ post) x0 x1 -> ofit (hpre ++ [h; h'] ++ hpost) (pre ++ [a; a'] ++ post) (pre ++ [a; a'] ++ post) o0 o1 ->
    tl a = [dual x; p; k] -> tl a' = [dual k; p'; x'] ->
    left_envs (tensordot imax) (@conj G N) hpre pre l = Ok L -> right_envs (tensordot imax) (@conj G N) hpost post e = Ok E -> two_sites_hamil (tensordot imax) b_perm h h' = Ok H -> conserving L H E ->
    merge (tensordot imax) a a' = Ok s -> hamil2site_times_state (tensordot imax) s H L E = Ok P -> reached P s ->
    length (fst x) * length (fst p) <= imax -> (Z.of_nat (bsz p' * bsz x') <= 2 ^ 63)%Z ->
    Forall (@left_isometry N) Dpre -> Forall (@right_isometry N) Dpost -> hermitian_chain (Dhpre ++ [Dh; Dh'] ++ Dhpost) Dl De (map (@size N 1) (Dpre ++ [Da; Da'] ++ Dpost)) ->
    chain_norm (Dpre ++ [Da; Da'] ++ Dpost) (bsz x0) (bsz x1) = ro ->
    improvable [bsz x; bsz p; bsz p'; bsz x'] (local_matrix Dpre Dhpre Dh Dh' Dpost Dhpost Dl De) eps (pair_amp Da Da') ->
    (forall Et U DU M, b_update imax eps s H L E = Ok (Et, U) -> den U DU -> tl U = [dual x; p; p'; x'] -> sector_matrix 2 U DU M -> isometries M (dsvd M)) ->
    (forall Et U DU u v w z, b_update imax eps s H L E = Ok (Et, U) -> den U DU -> tl U = [dual x; p; p'; x'] -> sprod [bsz x; bsz p; bsz p'; bsz x'] (dv DU) (dv DU) = ro ->
      svd_split dsvd U 2 = Ok (u, v, w) -> tidy gtb v z u /\ tidy gtb v z w) ->
    exists Et b b' k' DEt Db Db', b_site_update imax eps gtb lower wt dsvd thr mn mx fwd a a' H L E = Some (Ok (Et, b, b')) /\
      (den Et DEt /\ den b Db /\ den b' Db') /\ (tl Et = [] /\ tl b = [dual x; p; k'] /\ tl b' = [dual k'; p'; x']) /\ fit (pre ++ [b; b'] ++ post) x0 x1 /\
      (b_rule b = qop G (b_rule a) (b_rule a') /\ b_rule b' = qe G) /\
      1 <= bsz k' <= Nat.min (bsz x * bsz p) (bsz p' * bsz x') /\
      chain_norm (Dpre ++ [Db; Db'] ++ Dpost) (bsz x0) (bsz x1) = ro /\
      (if fwd then left_isometry_used Db Db' else right_isometry_used Db Db') /\
      le N (dv DEt []) (expectation (Dpre ++ [Da; Da'] ++ Dpost) (Dpre ++ [Da; Da'] ++ Dpost) (Dhpre ++ [Dh; Dh'] ++ Dhpost) Dl De) /\
      ((forall l, wgtb (total wt l) thr = true <-> exists v, In v l /\ v <> rz) -> (Z.of_nat (bsz p' * bsz x') <= mx)%Z ->
        expectation (Dpre ++ [Db; Db'] ++ Dpost) (Dpre ++ [Db; Db'] ++ Dpost) (Dhpre ++ [Dh; Dh'] ++ Dhpost) Dl De = dv DEt [] /\
        ((forall Et U DU z, b_update imax eps s H L E = Ok (Et, U) -> den U DU -> tl U = [dual x; p; p'; x'] -> sprod [bsz x; bsz p; bsz p'; bsz x'] (dv DU) (dv DU) = ro -> In z (b_blocks U) ->
            exists z' j, In z' (b_blocks U) /\ block_quantity 2 U (fst z') = block_quantity 2 U (fst z) /\ in_range (dsh (snd z')) j = true /\ dv (snd z') j <> rz) ->
          if fwd then left_isometry Db else right_isometry Db')).
  Proof.
    intros Hpre Ha Ha' Hpost Hhpre Hh Hh' Hhpost Hl He Tl Te HLn F O Ta Ta' EL EE EH CV EM EP RE IS HB IL IR HC HN HI HISO HTID.
    assert (HF : Forall2 den (pre ++ [a; a'] ++ post) (Dpre ++ [Da; Da'] ++ Dpost)) by (apply Forall2_app; [exact Hpre|]; apply Forall2_app; [auto|exact Hpost]).
    assert (HHF : Forall2 den (hpre ++ [h; h'] ++ hpost) (Dhpre ++ [Dh; Dh'] ++ Dhpost)) by (apply Forall2_app; [exact Hhpre|]; apply Forall2_app; [auto|exact Hhpost]).
    assert (Sa : dsh Da = [bsz x; bsz p; bsz k]) by (rewrite (stored_shape Ha), Ta; cbn [map]; rewrite sizes_dual; reflexivity).
    assert (Sa' : dsh Da' = [bsz k; bsz p'; bsz x']) by (rewrite (stored_shape Ha'), Ta'; cbn [map]; rewrite sizes_dual; reflexivity).
    assert (Sl : dsh Dl = [bsz x0; bsz o0; bsz x0]) by (rewrite (stored_shape Hl), Tl; cbn [map]; rewrite sizes_dual; reflexivity).
    assert (Se : dsh De = [bsz x1; bsz o1; bsz x1]) by (rewrite (stored_shape He), Te; cbn [map]; rewrite !sizes_dual; reflexivity).
    assert (HLD : length Dhpre = length Dpre) by (rewrite <- (den_length Hhpre), <- (den_length Hpre); exact HLn).
    (* the dimensions of the blocks *)
    apply mps_fit_app in F as (z & F1 & (s1 & k1 & E1 & (s2 & k2 & E2 & F2))). rewrite Ta in E1. rewrite Ta' in E2.
    assert (z = x) by (apply (f_equal (hd (dual x))) in E1; cbn in E1; rewrite <- (@bdual_dual G z), <- E1; rewrite bdual_dual; reflexivity). subst z. injection E1 as _ <-. injection E2 as _ <-.
    pose proof O as O'. apply ofit_parts in O' as (q & O1 & O'); try (symmetry; exact HLn). destruct O' as (r & m & m' & Eh & Em & Em' & (q' & m2 & m2' & Eh' & Em2 & Em2' & O2)).
    rewrite Ta in Em, Em'. rewrite Ta' in Em2, Em2'. cbn in Em, Em', Em2, Em2'. injection Em as <-. injection Em' as <-. injection Em2 as <-. injection Em2' as <-.
    (* the environments and their dense forms *)
    destruct (@b_left_envs G N imax hpre pre l x0 o0 x q Dpre Dhpre Dl Hpre Hhpre Hl Tl F1 O1) as (L' & EL' & TL & HL). rewrite EL in EL'. injection EL' as <-.
    destruct (@b_right_envs G N imax hpost post e x' q' x1 o1 Dpost Dhpost De Hpost Hhpost He Te F2 O2) as (E' & EE' & TE & HE). rewrite EE in EE'. injection EE' as <-.
    destruct (@b_two_sites G N imax h [h'] q q' Dh [Dh'] Hh) as (rr & Err & Lrr & Prr); [auto|exists p, r, (dual p); split; [exact Eh|]; exists p', q', (dual p'); split; [exact Eh'|reflexivity]|].
    cbn in Err. rewrite EH in Err. cbn in Err. injection Err as <-. destruct (Prr 0 H h h' Dh Dh' eq_refl eq_refl eq_refl eq_refl eq_refl) as (HH & TH). rewrite Eh, Eh' in TH. cbn in TH. clear Prr Lrr.
    pose proof (dense_fit Hpre _ _ F1) as DF1. pose proof (dense_fit Hpost _ _ F2) as DF2. pose proof (dense_ofit Hhpre _ _ Hpre Hpre O1) as DO1. pose proof (dense_ofit Hhpost _ _ Hpost Hpost O2) as DO2.
    assert (Sh : dsh Dh = [bsz q; bsz p; bsz r; bsz p]) by (rewrite (stored_shape Hh), Eh; cbn [map]; rewrite !sizes_dual; reflexivity).
    assert (Sh' : dsh Dh' = [bsz r; bsz p'; bsz q'; bsz p']) by (rewrite (stored_shape Hh'), Eh'; cbn [map]; rewrite !sizes_dual; reflexivity).
    destruct (@d_left_envs N Dhpre Dpre Dl _ _ _ _ Sl DF1 DO1) as (Le & ELe & SLe & VLe). destruct (@d_right_envs N Dhpost Dpost De _ _ _ _ Se DF2 DO2) as (Re & ERe & SRe & VRe).
    destruct (@hamil_ok N Dh Dh' _ _ _ _ _ Sh Sh') as (Hd & EHd & SHd & VHd).
    apply (@den_deq L _ Le) in HL; [|apply (@deq3 _ _ (bsz x) (bsz q) (bsz x)); [rewrite TL; cbn [map dsh]; rewrite sizes_dual; reflexivity|exact SLe|]; intros i j c Hi; rewrite VLe by (rewrite SLe; exact Hi); reflexivity].
    apply (@den_deq E _ Re) in HE; [|apply (@deq3 _ _ (bsz x') (bsz q') (bsz x')); [rewrite TE; cbn [map dsh]; rewrite !sizes_dual; reflexivity|exact SRe|]; intros i j c Hi; rewrite VRe by (rewrite SRe; exact Hi); reflexivity].
    apply (@den_deq H _ Hd) in HH; [|split; [rewrite SHd; cbn [two_site dsh]; unfold size; rewrite Sh, Sh'; reflexivity|]; intros i Hi; rewrite VHd; [reflexivity|]; rewrite SHd; cbn [two_site dsh] in Hi; unfold size in Hi; rewrite Sh, Sh' in Hi; exact Hi].
    rewrite (@chain_sizes N Dpre Dpost _ _ _ _ Da Da' _ Sa Sa') in HC.
    pose proof (@heff_hermitian N _ _ _ _ _ _ _ _ _ _ _ _ _ _ _ _ _ _ _ Sl Se DF1 DF2 DO1 DO2 Sh Sh' Le Hd Re ELe ERe EHd HC) as HM.
    pose proof (@heff_local N _ _ _ _ _ _ _ _ _ _ _ _ _ _ _ _ _ _ _ Sl Se DF1 DF2 DO1 DO2 Sh Sh' Le Hd Re ELe ERe EHd) as HLM.
    rewrite (@norm_centre N _ _ _ _ _ _ _ _ _ _ _ DF1 Sa Sa' DF2 IL IR) in HN.
    destruct (@bsite_ok G N W imax eps gtb lower wt dsvd thr mn mx Peps Zeps HO low low0 Hmn H_thin fwd a a' H L E s P Da Da' Hd Le Re x p k p' x' q q' Ha Ha' HH HL HE TL Ta Ta' TH TE CV EM EP RE IS HB HM HN)
      as (Et & b & b' & k' & DEt & Db & Db' & EB & DD & (T1 & T2 & T3) & RR & BK & NB & IB & LE & EX); try assumption.
    { eapply improvable_ext; [exact HLM| |exact HI]. reflexivity. }
    exists Et, b, b', k', DEt, Db, Db'. split; [exact EB|]. split; [exact DD|]. split; [auto|]. destruct DD as (D1 & D2 & D3).
    assert (Sb : dsh Db = [bsz x; bsz p; bsz k']) by (rewrite (stored_shape D2), T2; cbn [map]; rewrite sizes_dual; reflexivity).
    assert (Sb' : dsh Db' = [bsz k'; bsz p'; bsz x']) by (rewrite (stored_shape D3), T3; cbn [map]; rewrite sizes_dual; reflexivity).
    split. { apply mps_fit_app. exists x. split; [exact F1|]. exists p, k'. split; [exact T2|]. exists p', x'. split; [exact T3|exact F2]. }
    split; [exact RR|]. split; [exact BK|]. split; [rewrite (@norm_centre N _ _ _ _ _ _ _ _ _ _ _ DF1 Sb Sb' DF2 IL IR); exact NB|]. split; [exact IB|].
    rewrite (@pair_energy N _ _ _ _ _ _ _ _ _ _ _ _ _ _ _ _ _ _ _ Sl Se DF1 DF2 DO1 DO2 Sh Sh' Le Hd Re ELe ERe EHd Da Da' _ Sa Sa').
    rewrite (@pair_energy N _ _ _ _ _ _ _ _ _ _ _ _ _ _ _ _ _ _ _ Sl Se DF1 DF2 DO1 DO2 Sh Sh' Le Hd Re ELe ERe EHd Db Db' _ Sb Sb').
    split; [exact LE|]. exact EX.
  Qed.
End C.
