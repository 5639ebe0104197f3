(** Batched matrix products: tensors of any rank, matrices, incompatible arguments and empty dimensions. *)
From Verif Require Import Base Quantity QuantityProofs FlatMap SpecFlatMap FlatMapProofs FlatMapThms Ring Index SpecIndex IndexProofs Dense LegsProofs BTensor SpecBTensor BTensorProofs BTensorThms ArithProofs
  Tensordot TensordotProofs TensordotThms Reshape SpecReshape ReshapeProofs ReshapeThms View SpecView ViewProofs ViewThms ViewPut Bcast SpecBcast BcastProofs BcastThms Edges SpecEdges EdgesBlock Bmm SpecBmm BmmProofs BmmLoops BmmThms.
From Coq Require Import Permutation Lia.
Set Implicit Arguments.

Section T.
  Context {G : abgroup} {R : ring}.
  Notation t := (btensor G R).
  Implicit Types A B C T : t.

  Lemma same_rank_1 sh a b : same_rank sh a (1 :: sh) b <-> in_range sh a = true /\ b = 0 :: a.
  Proof.
    unfold same_rank. split.
    - intros (H1 & H2 & H3). split; [exact H1|]. destruct b as [|x b]; [discriminate|]. apply in_range_cons in H2 as [H2 H2']. replace x with 0 in * by lia. f_equal.
      cbn in H3. symmetry. eapply rowmajor_inj; eauto.
    - intros [H ->]. split; [exact H|]. split; [|reflexivity]. cbn. exact H.
  Qed.
  Definition d_lift (D : dense R) : dense R := mkD (1 :: dsh D) (fun i => dv D (tl i)).
  Lemma lift_ok T : valid T -> nonempty T -> exists s T', shape_from_list [@of_struct G R [[(1, qe G)]] (qe G); T] = Ok s /\ reshape_as false T s = Ok T' /\
    valid T' /\ b_rule T' = b_rule T /\ legs T' = [1] :: legs T /\ qlegs T' = [qe G] :: qlegs T /\ forall D, dense_form T D -> dense_form T' (d_lift D).
  Proof.
    intros VT NT. pose proof (proj1 VT) as MT. set (tr := @of_struct G R [[(1, qe G)]] (qe G)). assert (Mt : meta_ok tr) by (repeat split).
    destruct (@shape_list_ok G R [tr; T]) as (s & ES & (VS & BS & LS & QS & RS)); [discriminate|constructor; [exact Mt|constructor; [exact MT|constructor]]|].
    exists s. cbn in LS, QS. rewrite app_nil_r in LS, QS. assert (SS : b_sbd s = 1 :: b_sbd T) by (rewrite <- (legs_lens (proj1 VS)), LS, <- (legs_lens MT); reflexivity).
    destruct (@reshape_as_accepts G R T s VT (proj1 VS) (nonempty_sbd MT NT)) as (T' & ET & VT' & RT & LT & QT & SE).
    { assert (P1 : forall l, prod_list l = prod_list (1 :: l)) by (intros l; change (prod_list (1 :: l)) with (1 * prod_list l); lia).
      split; [rewrite SS; apply P1|]. intros a b H. rewrite SS in H. apply same_rank_1 in H as [H ->]. rewrite LS. apply P1. }
    { intros a b H. rewrite SS in H. apply same_rank_1 in H as [H ->]. rewrite QS. cbn. rewrite qop_e_l. reflexivity. }
    exists T'. split; [exact ES|]. split; [exact ET|]. split; [exact VT'|]. split; [exact RT|]. split; [rewrite LT; exact LS|]. split; [rewrite QT; exact QS|].
    assert (ST : b_sbd T' = 1 :: b_sbd T) by (rewrite <- (legs_lens (proj1 VT')), LT, (legs_lens (proj1 VS)); exact SS).
    intros D [D1 D2]. rewrite LS in LT. split; [cbn; rewrite D1, LT; reflexivity|]. intros b o Hb Ho. rewrite LT in Ho |- *. rewrite ST in Hb. destruct b as [|x b]; [discriminate|]. apply in_range_cons in Hb as [Hx Hb].
    replace x with 0 in * by lia. cbn [pick] in Ho. destruct o as [|y o]; [discriminate|]. apply in_range_cons in Ho as [Hy Ho]. cbn in Hy. replace y with 0 in * by lia. cbn [place]. cbn [dv d_lift tl]. rewrite D2 by auto.
    destruct (SE b (0 :: b)) as [_ SE']; [rewrite ST; apply same_rank_1; auto|]. symmetry. apply SE'. rewrite LT. cbn [pick nth]. apply same_rank_1. auto.
  Qed.

  Theorem bmm_thm A B : valid A -> valid B -> bmm_ok A B -> nonempty A -> nonempty B ->
    exists C, bmm A B = Ok C /\ valid C /\ bmm_meta A B C /\ forall DA DB, dense_form A DA -> dense_form B DB -> dense_form C (d_bmm DA DB).
  Proof.
    intros VA VB OK NA NB. pose proof OK as OK0. destruct (pair_ok VA VB OK) as (m & Lb & lr & lk & lc & QA & qr & qk & QB & qk' & qc & P).
    unfold bmm. rewrite (p_rA P), (p_rB P). destruct (Nat.eqb_spec (m + 2) 2) as [E|E]; cbn [andb].
    2:{ destruct (batched_dense P NA NB) as (C & E1 & E2 & E3 & _ & E4). eauto. }
    assert (Em : m = 0) by lia. subst m. clear E. pose proof (p_m P) as Hm. destruct Lb as [|]; [|discriminate]. pose proof (p_wA P) as WA. pose proof (p_wB P) as WB. destruct QA as [|]; [|discriminate]. destruct QB as [|]; [|discriminate]. clear Hm WA WB.
    destruct (lift_ok VA NA) as (sa & A' & -> & EA & VA' & RA & LA & QA & DFA). cbn [rbind]. rewrite EA. cbn [rbind].
    destruct (lift_ok VB NB) as (sb & B' & -> & EB & VB' & RB & LB & QB & DFB). cbn [rbind]. rewrite EB. cbn [rbind].
    assert (P' : pair A' B' 1 [[1]] lr lk lc [[qe G]] qr qk [[qe G]] qk' qc).
    { rewrite (p_lA P) in LA. rewrite (p_lB P) in LB. rewrite (p_qA P) in QA. rewrite (p_qB P) in QB.
      constructor; auto; try (apply P; fail).
      - rewrite <- (legs_length (proj1 VA')), LA. reflexivity.
      - rewrite <- (legs_length (proj1 VB')), LB. reflexivity. }
    assert (NE : forall T T', legs T' = [1] :: legs T -> nonempty T -> nonempty T').
    { intros T T' L N l Hl. rewrite L in Hl. destruct Hl as [<-|Hl]; [cbn; lia|apply N; exact Hl]. }
    destruct (batched_dense P' (NE _ _ LA NA) (NE _ _ LB NB)) as (C & -> & VC & (RC & LC1 & QC) & LC & DC). cbn [rbind].
    assert (RK : b_rank C = 3) by (rewrite <- (legs_length (proj1 VC)), LC; reflexivity).
    assert (SP : forall n, In n (b_sbd C) -> 0 < n).
    { apply (nonempty_sbd (proj1 VC)). intros l Hl. rewrite LC in Hl. cbn in Hl. destruct Hl as [<-|[<-|[<-|[]]]]; [cbn; lia|apply NA|apply NB]; [rewrite (p_lA P)|rewrite (p_lB P)]; cbn; auto. }
    destruct (@squeeze_dim_spec G R C 0 VC ltac:(lia) SP) as [_ SQ]. destruct SQ as (S & ES & VS & (LS & QS & RKS & RS) & DS); [rewrite LC; reflexivity|].
    rewrite RK in *. change (single 0 3) with [Some 0; None; None] in *. rewrite LC in LS. cbn in LS.
    assert (QC' : qlegs C = [qop G (qe G) (qe G)] :: [qr; qc]) by (rewrite QC, (p_rA P'), (p_qA P'), (p_qB P'); reflexivity). rewrite QC' in QS. cbn in QS.
    exists S. split; [exact ES|]. split; [exact VS|]. split.
    - unfold bmm_meta. rewrite (p_rA P), (p_lA P), (p_lB P), (p_qA P), (p_qB P). cbn. split; [|auto].
      destruct (RS [Some 0; None; None] [Some 0; None; None]) as [R1 _].
      { rewrite LC. cbn. split; [|exact I]. split; [cbn; lia|]. split; [cbn; lia|reflexivity]. }
      rewrite QC' in R1. cbn in R1. rewrite !qop_e_r in R1. rewrite R1, RC, RA, RB. reflexivity.
    - intros DA DB HA HB. eapply dense_form_deq; [apply VS|apply DS, DC; [apply DFA, HA|apply DFB, HB]|].
      pose proof (proj1 HA) as SA. pose proof (proj1 HB) as SB. rewrite (p_lA P) in SA. rewrite (p_lB P) in SB. cbn in SA, SB.
      split; [cbn; rewrite SA, SB; reflexivity|]. cbn. rewrite SA, SB. cbn. intros i Hi. destruct i as [|x [|y [|]]]; try discriminate; [apply andb_true_iff in Hi as [_ Hi]; discriminate| |apply andb_true_iff in Hi as [_ Hi]; apply andb_true_iff in Hi as [_ Hi]; discriminate].
      cbn. reflexivity.
  Qed.

  Lemma bmm_ok_lift A B A' B' : meta_ok A -> meta_ok B -> meta_ok A' -> meta_ok B' -> b_rank A = 2 -> b_rank B = 2 -> legs A' = [1] :: legs A -> legs B' = [1] :: legs B -> qlegs A' = [qe G] :: qlegs A -> qlegs B' = [qe G] :: qlegs B -> bmm_ok A' B' -> bmm_ok A B.
  Proof.
    intros MA MB MA' MB' RA RB LA LB QA QB. assert (RA' : b_rank A' = 3) by (rewrite <- (legs_length MA'), LA; cbn; rewrite (legs_length MA), RA; reflexivity).
    unfold bmm_ok. rewrite RA', RA, RB, LA, LB, QA, QB. cbn. intros (_ & _ & _ & H1 & H2). split; [reflexivity|]. split; [lia|]. split; [reflexivity|]. split; [exact H1|exact H2].
  Qed.
  Theorem bmm_rejects A B : valid A -> valid B -> nonempty A -> nonempty B -> ~ bmm_ok A B -> bmm A B = Throw InvalidArgument.
  Proof.
    intros VA VB NA NB H. unfold bmm. destruct (Nat.eqb_spec (b_rank A) 2) as [EA|EA]; cbn [andb].
    2:{ unfold bmm_batched. rewrite (proj2 (check_spec (proj1 VA) (proj1 VB)) H). reflexivity. }
    destruct (Nat.eqb_spec (b_rank B) 2) as [EB|EB]; cbn [andb].
    2:{ unfold bmm_batched. rewrite (proj2 (check_spec (proj1 VA) (proj1 VB)) H). reflexivity. }
    destruct (lift_ok VA NA) as (sa & A' & -> & E1 & VA' & RA & LA & QA & DFA). cbn [rbind]. rewrite E1. cbn [rbind].
    destruct (lift_ok VB NB) as (sb & B' & -> & E2 & VB' & RB & LB & QB & DFB). cbn [rbind]. rewrite E2. cbn [rbind].
    unfold bmm_batched. rewrite (proj2 (check_spec (proj1 VA') (proj1 VB'))); [reflexivity|]. intros H'. apply H. eapply bmm_ok_lift; eauto; [apply VA|apply VB|apply VA'|apply VB'].
  Qed.

  (** Batched products with an empty dimension. *)
  Theorem bmm_empty A B : valid A -> valid B -> bmm_ok A B -> 2 < b_rank A -> (forall n, In n (b_sbd A) \/ In n (b_sbd B) -> 0 < n) ->
    (~ nonempty A \/ ~ nonempty B) -> bmm A B = Throw InvalidArgument.
  Proof.
    intros VA VB OK HR SP HE. pose proof OK as OK0. destruct (pair_ok VA VB OK) as (m & Lb & lr & lk & lc & QA & qr & qk & QB & qk' & qc & P). pose proof (proj1 VA) as MA. pose proof (proj1 VB) as MB.
    assert (SA : forall n, In n (b_sbd A) -> 0 < n) by auto. assert (SB : forall n, In n (b_sbd B) -> 0 < n) by auto. pose proof (p_m P) as Hm.
    unfold bmm. replace (b_rank A =? 2) with false by (symmetry; apply Nat.eqb_neq; lia). cbn [andb]. unfold bmm_batched. rewrite (proj1 (check_spec MA MB) OK). cbn [rbind].
    assert (X : bmm_shape A B = Throw InvalidArgument); [|rewrite X; reflexivity].
    unfold bmm_shape. rewrite (p_rA P). replace (m + 2 - 2) with (length Lb) by lia.
    set (p1 := repeat None (length Lb) ++ [Some 0; Some 0]). set (p2 := repeat (Some 0) (length Lb) ++ [None; Some 0]).
    replace (repeat (-1)%Z (length Lb) ++ [0%Z; 0%Z]) with (zpat p1) by (unfold p1; rewrite zpat_app, zpat_nones; reflexivity).
    replace (repeat 0%Z (length Lb) ++ [(-1)%Z; 0%Z]) with (zpat p2) by (unfold p2; rewrite zpat_app, zpat_zeros; reflexivity).
    assert (PA1 : pat_ok (legs A) p1 <-> 0 < sum_list lr /\ 0 < sum_list lk) by (rewrite (p_lA P); unfold p1; rewrite pat_nones; cbn; tauto).
    assert (PB1 : pat_ok (legs B) p1 <-> 0 < sum_list lk /\ 0 < sum_list lc) by (rewrite (p_lB P); unfold p1; rewrite pat_nones; cbn; tauto).
    destruct (Nat.eq_dec (sum_list lr) 0) as [Zr|Zr]; [rewrite (@shape_from_rejects G R A p1 MA); [reflexivity|rewrite PA1; lia]|].
    destruct (Nat.eq_dec (sum_list lk) 0) as [Zk|Zk]; [rewrite (@shape_from_rejects G R A p1 MA); [reflexivity|rewrite PA1; lia]|].
    destruct (@shape_from_spec G R A p1 MA) as (sa & -> & Va & Ba & (La & Qa & Ra & _)); [apply PA1; lia|exact SA|]. cbn [rbind].
    destruct (Nat.eq_dec (sum_list lc) 0) as [Zc|Zc]; [rewrite (@shape_from_rejects G R B p1 MB); [reflexivity|rewrite PB1; lia]|].
    destruct (@shape_from_spec G R B p1 MB) as (sb & -> & Vb & Bb & (Lb' & Qb & Rb & _)); [apply PB1; lia|exact SB|]. cbn [rbind].
    rewrite (p_lA P) in La, Ra. unfold p1 in La, Ra. rewrite keep_nones in La, Ra. cbn [keep] in La, Ra. rewrite app_nil_r in La, Ra.
    rewrite (p_lB P) in Lb', Rb. unfold p1 in Lb', Rb. rewrite keep_nones in Lb', Rb. cbn [keep] in Lb', Rb. rewrite app_nil_r in Lb', Rb.
    assert (Z0 : b_rank sb - b_rank sa = 0) by lia.
    assert (GD : Forall2 good (skipn (b_rank sb - b_rank sa) (legs sb)) (legs sa)).
    { rewrite Z0, Lb', La. clear. cbn [skipn]. induction Lb; constructor; auto. left; auto. }
    destruct (@shape_ok G R sb sa Vb Va ltac:(lia) GD) as [EC _]. rewrite EC. cbn [rbind snd].
    rewrite (@shape_from_rejects G R A p2 MA); [reflexivity|]. intros HP. rewrite (p_lA P) in HP. unfold p2 in HP.
    assert (HL : forall l, In l Lb -> 0 < sum_list l).
    { revert HP. clear. induction Lb as [|x L IH]; cbn; [intros _ l []|]. intros [H1 H2] l [<-|Hl]; auto. }
    assert (NA : nonempty A) by (intros l Hl; rewrite (p_lA P) in Hl; apply in_app_or in Hl as [Hl|[<-|[<-|[]]]]; auto; lia).
    assert (NB : nonempty B) by (intros l Hl; rewrite (p_lB P) in Hl; apply in_app_or in Hl as [Hl|[<-|[<-|[]]]]; auto; lia). tauto.
  Qed.
End T.
