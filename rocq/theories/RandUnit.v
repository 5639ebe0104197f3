(** The sites of a random chain with bonds of one value: isometries, so that the chain is normalized and has its centre anywhere. *)
From Verif Require Import Base Quantity QuantityProofs FlatMap SpecFlatMap FlatMapProofs Ring Index SpecIndex IndexProofs Dense BTensor SpecBTensor LegsProofs BTensorProofs BTensorThms BTensorThms2 BTensorArith
  Bcast SpecBcast BcastProofs BcastMain DmrgRunEx LanczosVec LanczosProofs ChainProofs ChainNorm ModelsBlockProofs View SpecView ViewProofs ViewThms ViewKeep SpecViewKeep Chain SpecChain SpecMove SpecEdges Num SpecLanczos SpecSiteUpdate SpecDmrgRun Rand SpecRand RandChain SpecRandChain RandChainProofs.
Set Implicit Arguments.

Section P.
  Context {G : abgroup} {N : numeric}.
  Notation bt := (btensor G N).
  Add Ring Rr : (ring_th N).
  Notation sq D := (d_sum (d_map (fun x : N => rmul x (rconj x)) D)).
  Notation nz := (normalize (ndiv N) (n_sqrt N)).

  Lemma entry_not (T : bt) b o : ~ stores T b -> bentry T b o = rz.
  Proof. unfold stores, bentry. destruct (assoc leqb b (b_blocks T)); [|reflexivity]. intros H. exfalso. apply H. eauto. Qed.
  Lemma entry_out (T : bt) b o : valid T -> in_range (b_sbd T) b = false -> bentry T b o = rz.
  Proof. intros V H. apply entry_not. intros (x & Hx). destruct (valid_assoc _ V Hx) as [[H1 _] _]. congruence. Qed.
  (** What [normalize] does to the dense form. *)
  Lemma normalize_dense (T T' : bt) D : valid T -> nz T = Ok T' -> dense_form T D -> dense_form T' (d_map (fun x => ndiv N x (n_sqrt N (sq D))) D).
  Proof.
    intros HV EN HD. pose proof HV as (HM & _). destruct (conj_spec HV HD) as (VC & DCj & _). unfold normalize in EN.
    assert (BC : bc_ok T (conj T)) by (apply bc_same; [exact HM|apply VC|reflexivity]).
    destruct (mul_thm HV VC BC HD DCj) as (C & D2 & EC & (CV & CR & _) & EZ & FC). rewrite EC in EN. cbn [rbind] in EN.
    assert (CR' : b_rule C = qe G) by (rewrite CR; cbn; apply qop_inv_r).
    destruct (sum_spec CV FC) as (IT & VS). specialize (proj2 VS CR') as VB0.
    set (B := b_sqrt (n_sqrt N) (bt_sum C)) in *. assert (VB : valid B) by (apply map_blocks_valid; [reflexivity|exact VB0]).
    assert (HB : bc_ok T B) by (apply bc_scalar; auto).
    unfold b_div_ in EN. rewrite (inplace_thm (ndiv N) HV VB HB) in EN by (cbn; lia). destruct (op_thm (ndiv N) HV VB HB) as (T1 & E & H). rewrite E in EN. injection EN as ->.
    destruct H as (V' & _ & L' & _ & S' & VAL). cbn [B b_sqrt map_blocks bt_sum b_rank] in L'. rewrite Nat.max_0_r in L'. change (legs B) with (@nil (list nat)) in *.
    rewrite (@pad_full (b_rank T) (legs T)) in L' by (apply legs_length, HM).
    unfold pad in L'. cbn [length] in L'. rewrite Nat.sub_0_r, app_nil_r in L'.
    rewrite bleg_one in L' by (apply legs_length, HM).
    assert (SB : b_sbd T' = b_sbd T) by (rewrite <- (legs_lens (proj1 V')), <- (legs_lens HM), L'; reflexivity).
    assert (SD : d_sum D2 = sq D).
    { unfold t_zip in EZ. cbn [d_map dsh] in EZ. rewrite bc_shape_self, rev_involutive in EZ. cbn [andb] in EZ. injection EZ as <-. unfold d_sum. cbn [d_map dsh dv].
      apply sumf_ext. intros i Hi. apply idxs_In in Hi. rewrite bproj_self by exact Hi. reflexivity. }
    assert (EB : forall o, bentry B [] o = n_sqrt N (sq D)).
    { intros o. rewrite <- SD. unfold item, bt_sum in IT. cbn in IT. injection IT as IT. unfold bentry. cbn. rewrite IT. reflexivity. }
    destruct HD as [D1 HD]. split; [rewrite L'; exact D1|]. rewrite SB, L'. intros b o Hb Ho. cbn [d_map dv]. rewrite (HD b o Hb Ho).
    assert (BS : bsel (legs T) b = b) by (apply bsel_self; rewrite (legs_lens HM); exact Hb).
    specialize (S' b). rewrite SB in S'. specialize (S' Hb). rewrite BS in S'.
    destruct (assoc leqb b (b_blocks T')) as [x|] eqn:EA.
    - rewrite VAL by (exists x; exact EA). rewrite BS, bproj_self by exact Ho. rewrite <- (EB (bproj (pick 0 [] (bsel [] b)) o)). reflexivity.
    - assert (NT : ~ stores T' b) by (intros (x & Hx); congruence). rewrite (entry_not o NT). rewrite (@entry_not T b o).
      + unfold ndiv. ring.
      + intros HT. apply NT, S'. split; [exact HT|]. eexists. reflexivity.
  Qed.

  (** A site between bonds of one value. *)
  Definition unit_site (D : dense N) : Prop := exists p, dsh D = [1; p; 1] /\ sprod (dsh D) (dv D) (dv D) = ro.
  Lemma unit_iso D : unit_site D -> left_isometry D /\ right_isometry D.
  Proof.
    intros (p & SD & E). rewrite SD in E. unfold sprod in E. rewrite sum_idxs_cons in E. cbn [seq] in E. rewrite sumf_cons, sumf_nil in E. rewrite sum_idxs_cons in E.
    assert (Q : sumf N (fun x => rmul (rconj (dv D [0; x; 0])) (dv D [0; x; 0])) (seq 0 p) = ro).
    { rewrite <- E, radd_comm, radd_0_l. apply sumf_ext. intros x _. rewrite sum_idxs1. cbn [seq]. rewrite sumf_cons, sumf_nil. ring. }
    split; intros c c' Hc Hc'; unfold size in *; rewrite SD in *; cbn [nth] in *; assert (c = 0) by lia; assert (c' = 0) by lia; subst; change (0 =? 0) with true; cbn [seq]; cbv iota.
    - rewrite sumf_cons, sumf_nil, Q. ring.
    - rewrite <- Q. apply sumf_ext. intros x _. rewrite sumf_cons, sumf_nil. ring.
  Qed.
  Lemma unit_chain (Ds : list (dense N)) : Forall unit_site Ds -> (forall c, canonical Ds c) /\ chain_norm Ds 1 1 = ro.
  Proof.
    intros F. split.
    - intros c. split; intros j A _ E; apply nth_error_In in E; rewrite Forall_forall in F; apply (unit_iso (F A E)).
    - rewrite <- (app_nil_r Ds). assert (FT : mps_fit (@dsh N) (fun k => k) Ds 1 1) by (clear - F; induction F as [|D l (p & SD & _) F IH]; [reflexivity|exists p, 1; split; [exact SD|exact IH]]).
      rewrite (@norm_lefts N Ds [] 1 1 1 FT); [|eapply Forall_impl; [|exact F]; intros D HD; apply (unit_iso HD)].
      unfold chain_norm. cbn [seq]. rewrite !sumf_cons, !sumf_nil. change (configs (@nil (dense N))) with [@nil nat]. rewrite !sumf_cons, !sumf_nil. change (amp (@nil (dense N)) [] 0 0) with (@ro N). rewrite ?conj1. ring.
  Qed.
  Variable rnd : nat -> list nat -> list nat -> dense N.
  Hypothesis Hrnd : forall i k sh, dsh (rnd i k sh) = sh.
  Hypothesis Hnz : forall i k sh o, in_range sh o = true -> dv (rnd i k sh) o <> rz.
  Lemma zeros_range (L : list (list nat)) : forall b, Forall (Forall (lt 0)) L -> in_range (lens L) b = true -> in_range (pick 0 L b) (map (fun _ => 0) L) = true.
  Proof.
    induction L as [|l L IH]; intros [|x b] F H; try discriminate; [reflexivity|]. inversion F as [|? ? F1 F2]; subst. cbn [lens map in_range] in H. apply andb_prop in H as [H1 H2]. apply Nat.ltb_lt in H1.
    cbn [pick map in_range]. rewrite (IH b F2 H2), andb_true_r. apply Nat.ltb_lt. rewrite Forall_forall in F1. apply F1, nth_In, H1.
  Qed.
  Lemma sq_sprod (D : dense N) : sq D = sprod (dsh D) (dv D) (dv D).
  Proof. unfold d_sum, sprod. cbn [d_map dsh dv]. apply sumf_ext. intros i _. ring. Qed.
  Lemma sprod_zero (sh : list nat) (v : list nat -> N) i : sprod sh v v = rz -> in_range sh i = true -> v i = rz.
  Proof.
    unfold sprod. intros E H. apply idxs_In in H. revert E H. induction (idxs sh) as [|a l IH]; intros E H; [destruct H|]. rewrite sumf_cons in E.
    assert (Q : rmul (rconj (v a)) (v a) = rz). { eapply nn_sum_zero; [apply n_nn_sq| |exact E]. apply nn_sum. intros. apply n_nn_sq. }
    destruct H as [<-|H]; [apply sq_zero, Q|]. apply IH; [|exact H]. rewrite Q in E. rewrite <- E. ring.
  Qed.
  Lemma drawn_unit (T : bt) D : drawn (ndiv N) (n_sqrt N) rnd T -> (exists k, stores T k) -> Forall (Forall (lt 0)) (legs T) -> dense_form T D -> sprod (dsh D) (dv D) (dv D) = ro.
  Proof.
    intros (i & t & Vt & Lt & EN & HR) (k & Hk) HP HD. destruct (to_dense_total Vt) as (Dt & _ & FDt & _).
    pose proof (normalize_dense Vt EN FDt) as F0. set (n := n_sqrt N (sq Dt)) in *.
    destruct (normalize_ok (ndiv N) (n_sqrt N) Vt) as (T' & E' & V' & _ & L' & _ & ST). rewrite EN in E'. injection E' as <-.
    assert (SB : b_sbd T = b_sbd t) by (rewrite <- (legs_lens (proj1 V')), <- (legs_lens (proj1 Vt)), L'; reflexivity).
    assert (Kr : in_range (b_sbd t) k = true) by (destruct Hk as (x & Hx); destruct (valid_assoc _ V' Hx) as [[H1 _] _]; rewrite <- SB; exact H1).
    assert (S0 : sq Dt <> rz).
    { intros Z. rewrite sq_sprod in Z. destruct (proj1 (ST k Kr) Hk) as (x & Hx). pose proof (HR _ _ Hx) as ->. rewrite L' in HP. rewrite <- (legs_lens (proj1 Vt)) in Kr. pose proof (zeros_range _ HP Kr) as Ho.
      destruct FDt as [D1 D2]. pose proof (D2 k _ ltac:(rewrite <- (legs_lens (proj1 Vt)); exact Kr) Ho) as Q. unfold bentry in Q. rewrite Hx in Q. apply (Hnz i k _ _ Ho). rewrite <- Q. apply (sprod_zero (dsh Dt) (dv Dt)); [exact Z|].
      rewrite D1. apply (place_spec _ _ _ Kr Ho). }
    assert (NS : n_leb N rz (sq Dt) = true) by (rewrite sq_sprod; apply sprod_nn).
    assert (En : rmul n n = sq Dt) by apply (n_sqrt_sq N _ NS).
    assert (Zn : n <> rz) by (intros Z; apply S0; rewrite <- En, Z; ring).
    assert (Cn : rconj n = n) by apply (n_nn_conj N), (n_sqrt_nn N _ NS).
    apply (@mul_eq N (rmul n n)); [rewrite En; exact S0|]. transitivity (sq Dt); [|rewrite En; ring]. rewrite sq_sprod.
    assert (DE : dsh D = dsh Dt) by (destruct HD as [-> _], FDt as [-> _]; rewrite L'; reflexivity). rewrite DE.
    unfold sprod. rewrite <- sumf_mul_l. apply sumf_ext. intros j Hj. apply idxs_In in Hj.
    assert (EJ : dv D j = ndiv N (dv Dt j) n).
{ destruct (dense_form_unique (proj1 V') HD F0) as (_ & Q). rewrite <- DE in Hj. apply (Q j Hj). }
    rewrite EJ. transitivity (rmul (rmul (rconj n) (rconj (ndiv N (dv Dt j) n))) (rmul n (ndiv N (dv Dt j) n))); [rewrite Cn; ring|]. rewrite <- rconj_mul, (div_mul N) by exact Zn. reflexivity.
  Qed.

  Lemma one_section (l : list nat) : sum_list l = 1 -> Forall (lt 0) l -> l = [1].
  Proof. destruct l as [|a [|b l]]; unfold sum_list; cbn; intros H F; [discriminate|f_equal; lia|]. inversion F as [|? ? Ha F1]; subst. inversion F1 as [|? ? Hb _]; subst. unfold lt in *. lia. Qed.
  Notation leg := (list nat * list G)%type.
  Lemma one_legs (l : list bt) : forall x : leg, Forall (@valid G N) l -> mps_fit (@blegs G N) (bdual G) l x (trivial_bond G) -> fst x = [1] ->
    (forall i T, nth_error l i = Some T -> S i < length l -> sum_list (nth 2 (legs T) []) = 1 /\ Forall (lt 0) (nth 2 (legs T) [])) ->
    forall T, In T l -> legs T = [[1]; fst (nth 1 (blegs T) ([], [])); [1]].
  Proof.
    induction l as [|A l IH]; intros x V F Hx HB T; [intros []|]. inversion V as [|? ? VA Vl]; subst. destruct F as (p & k & E & F). destruct (blegs3 (proj1 VA) E) as [LA _].
    assert (K : fst k = [1]).
    { destruct l as [|B l']; [cbn in F; subst k; reflexivity|]. destruct (HB 0 A eq_refl) as [S1 S2]; [cbn; lia|]. rewrite LA in S1, S2. apply one_section; assumption. }
    intros [<-|I].
    - rewrite LA, E. cbn [nth]. rewrite K. unfold bdual. cbn [fst]. rewrite Hx. reflexivity.
    - apply (IH k); auto. intros i T' E1 L1. apply (HB (S i) T' E1). cbn. lia.
  Qed.

  Theorem random_unit src (phys : list bt) c n out Ds : phys <> [] -> Forall (@phys_ok G N) phys -> Forall (fun P : bt => b_rule P = qe G) phys ->
    Forall (fun P : bt => Forall (lt 0) (fst (nth 0 (blegs P) ([], [])))) phys ->
    random_bMPS (ndiv N) (n_sqrt N) src rnd 1 phys c n = Ok out -> Forall2 (@dense_form G N) out Ds -> Forall unit_site Ds.
  Proof.
    intros Hn HP HN HS E HD. destruct (random_all (ndiv N) (n_sqrt N) rnd Hrnd src c n Nat.lt_0_1 Hn HP) as [[E' _]|(out' & E' & (RV & RF & RP & _ & RB) & _ & r & b & S & -> & DR & VB & NB & EV & (bx & bp & LB) & SR)]; [congruence|].
    rewrite E in E'. injection E' as ->. pose proof (one_legs _ RV RF eq_refl RB) as LG. specialize (SR HN).
    assert (PS : forall T, In T (r ++ [S]) -> Forall (lt 0) (fst (nth 1 (blegs T) ([], [])))).
    { intros T HT. clear - RP HS HT. induction RP as [|A P l m Q RP IH]; [destruct HT|]. inversion HS; subst. destruct HT as [<-|HT]; [rewrite Q; assumption|auto]. }
    assert (U : forall (T : bt) D, drawn (ndiv N) (n_sqrt N) rnd T -> (exists k, stores T k) -> (exists p, legs T = [[1]; p; [1]] /\ Forall (lt 0) p) -> dense_form T D -> unit_site D).
    { intros T D H1 H2 (p & L & H3) H4. exists (sum_list p). split; [destruct H4 as [-> _]; rewrite L; reflexivity|]. apply (@drawn_unit T D H1 H2); [|exact H4]. rewrite L. repeat constructor; assumption. }
    apply Forall2_app_inv_l in HD as (D1 & D2 & HD1 & HD2 & ->). inversion HD2 as [|? DS ? ? FS HD3]; subst. inversion HD3; subst. clear HD2 HD3.
    apply Forall_app in DR as [DR1 DR2]. apply Forall_app in SR as [SR1 SR2]. apply Forall_app. split.
    - apply Forall_forall. intros D HDI. rewrite Forall_forall in DR1, SR1. assert (X : exists T : bt, In T r /\ dense_form T D).
      { clear - HD1 HDI. induction HD1 as [|T D0 l m H HD1 IH]; [destruct HDI|]. destruct HDI as [<-|HDI]; [exists T; split; [left; reflexivity|exact H]|]. destruct (IH HDI) as (T' & H1 & H2). exists T'. split; [right; exact H1|exact H2]. }
      destruct X as (T & HT & FT). assert (HT' : In T (r ++ [S])) by (apply in_or_app; left; exact HT). apply (U T D); auto. eexists. split; [apply LG, HT'|apply PS, HT'].
    - constructor; [|constructor]. inversion DR2; inversion SR2; subst. clear DR2 SR2. assert (IS : In S (r ++ [S])) by (apply in_or_app; right; left; reflexivity).
      assert (HPA : pat_ok (legs b) [None; None; Some 0]) by (rewrite LB; cbn; lia).
      assert (HTS : tail_single (legs b) [None; None; Some 0]).
      { rewrite LB. intros i Hi Hx. destruct i as [|[|[|i]]]; [exfalso; apply (Hx 0); [cbn; lia|reflexivity]|exfalso; apply (Hx 1); [cbn; lia|reflexivity]|reflexivity|cbn in Hi; lia]. }
      destruct (view_keep VB NB HPA HTS) as (S' & ES & VS & RS & LS & _ & DS'). change (zpat [None; None; Some 0]) with [-1; -1; 0]%Z in ES. rewrite EV in ES. injection ES as <-.
      pose proof (LG S IS) as LGS. pose proof (PS S IS) as PSS. rewrite LS, LB in LGS. cbn in LGS. injection LGS as -> Ebp. rewrite <- Ebp in PSS.
      destruct (to_dense_total VB) as (Db & _ & FB & _). destruct (U b Db ltac:(assumption) ltac:(assumption) ltac:(eauto) FB) as (p & Sp & Np).
      destruct (dense_form_unique (proj1 VS) FS (DS' _ FB)) as (Q1 & Q2). cbn [d_view_keep dsh] in Q1. rewrite Sp in Q1, Np. cbn in Q1. exists p. rewrite Q1 in *. split; [reflexivity|].
      rewrite <- Np. apply sprod_ext; intros [|x [|y [|z [|]]]] Hi; try discriminate; try (cbn in Hi; rewrite ?andb_false_r in Hi; discriminate);
        rewrite (Q2 _ Hi); cbn [in_range] in Hi; apply andb_prop in Hi as [_ Hi]; apply andb_prop in Hi as [_ Hi]; apply andb_prop in Hi as [Hi _]; apply Nat.ltb_lt in Hi; assert (z = 0) by lia; subst; reflexivity.
  Qed.
End P.
