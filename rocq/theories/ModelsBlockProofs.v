(** Proofs about the Hamiltonians with conserved quantities. *)
From Verif Require Import Base Quantity QuantityProofs FlatMap SpecFlatMap FlatMapProofs Ring Index SpecIndex Dense IndexProofs BTensor SpecBTensor LegsProofs
  BTensorProofs BTensorThms BTensorThms2 Bcast View SpecView SpecChain ChainInst SpecEdges EdgesBlock SpecViewKeep ViewKeep SpecSector RandChainProofs
  Models SpecModels ModelsProofs ModelsThms ModelsEx ModelsBlock SpecModelsBlock.
From Coq Require Import Lia.
Set Implicit Arguments.

Lemma bc_shape_self l : bc_shape l l = Some l.
Proof. induction l as [|x l IH]; cbn; [reflexivity|]. rewrite Nat.eqb_refl, IH. cbn. destruct (x =? 1); reflexivity. Qed.
Lemma bproj_self sh i : in_range sh i = true -> bproj sh i = i.
Proof.
  intros H. unfold bproj. rewrite (in_range_length _ _ H), Nat.sub_diag. cbn [skipn]. revert i H. induction sh as [|s sh IH]; intros [|x i] H; try discriminate; cbn; [reflexivity|].
  apply in_range_cons in H as [H1 H2]. f_equal; [|auto]. destruct (Nat.eqb_spec s 1); [lia|reflexivity].
Qed.

Lemma nth_rep A (a d : A) n i : i < n -> nth i (repeat a n) d = a.
Proof. revert i; induction n as [|n IH]; intros [|i] H; cbn; try lia; auto. apply IH. lia. Qed.

Section P.
  Context {G : abgroup} {R : ring}.
  Notation bt := (btensor G R).
  Variable signif : dense R -> bool.
  Variable near : R -> R -> bool.
  Hypothesis near_refl : forall x, near x x = true.

  Lemma allclose_same (a b : dense R) : dsh a = dsh b -> t_allclose near a b = Ok (forallb (fun i => near (dv a i) (dv b i)) (idxs (dsh b))).
  Proof.
    intros E. unfold t_allclose, t_zip. rewrite E, bc_shape_self. cbn [andb rbind dsh]. rewrite rev_involutive. f_equal.
    assert (H : forall i, In i (idxs (dsh b)) -> bproj (dsh b) i = i) by (intros i Hi; apply bproj_self, idxs_In, Hi).
    induction (idxs (dsh b)) as [|i l IH]; cbn; [reflexivity|]. rewrite H by (left; reflexivity). f_equal. apply IH. intros; apply H; right; auto.
  Qed.

  (** * One site *)
  Lemma carried_pick (S : bt) i cs b o : meta_ok S -> in_range (b_sbd S) b = true -> in_range (pick 0 (legs S) b) o = true -> place (legs S) b o = i ->
    (carried S i cs <-> cs = pick (qe G) (qlegs S) b).
  Proof.
    intros M. unfold carried. rewrite <- (legs_lens M). pose proof (legs_length M) as L1. pose proof (qlegs_length M) as L2. rewrite <- L2 in L1. clear L2 M.
    unfold blegs. revert b o i cs. revert L1. generalize (qlegs S). induction (legs S) as [|l L IH]; intros [|q Q] HL [|x b] [|y o] i cs Hb Ho <-; try discriminate.
    - cbn. split; [intros (_ & H & _); destruct cs; [reflexivity|discriminate]|intros ->; split; [reflexivity|]; split; [reflexivity|]; intros; lia].
    - cbn [lens map] in Hb. apply in_range_cons in Hb as [Hx Hb]. cbn [pick] in Ho. apply in_range_cons in Ho as [Hy Ho]. cbn [place pick combine length].
      injection HL as HL. specialize (IH Q HL b o (place L b o)).
      assert (HU : forall c, carries (l, q) (sum_list (firstn x l) + y) c <-> c = nth x q (qe G)).
      { intros c. unfold carries. cbn [fst snd]. split.
        - intros (b' & o' & H & <-). assert (H0 : located l (sum_list (firstn x l) + y) x y) by (unfold located; auto). apply find_section_unique in H, H0. congruence.
        - intros ->. exists x, y. split; [unfold located; auto|reflexivity]. }
      split.
      + intros (H1 & H2 & H3). destruct cs as [|c cs]; [discriminate|]. f_equal.
        * apply HU. exact (H3 0 (Nat.lt_0_succ _)).
        * apply (IH cs Hb Ho eq_refl). split; [cbn in H1; lia|]. split; [cbn in H2; lia|]. intros d Hd. apply (H3 (Datatypes.S d)). lia.
      + intros ->. destruct (proj2 (IH _ Hb Ho eq_refl) eq_refl) as (H1 & H2 & H3). split; [cbn; lia|]. split; [cbn; lia|].
        intros [|d] Hd; [apply HU; reflexivity|]. apply H3. lia.
  Qed.

  Lemma site_dich (S : bt) V : meta_ok S -> (forall n, In n (b_sbd S) -> 0 < n) -> dsh V = tots (legs S) ->
    bsite signif near S V = Throw InvalidArgument \/ exists T, bsite signif near S V = Ok T /\ same_meta S T /\ valid T.
  Proof.
    intros M Hp Hs. destruct (@from_basic_exact G R S V signif M Hp Hs) as (T & E & SM & VT & _). unfold bsite. rewrite E. cbn [rbind].
    destruct (to_dense_spec VT) as (D & ED & [HD _]). rewrite ED. cbn [rbind]. rewrite allclose_same.
    2: { rewrite HD, Hs. unfold tots, legs. destruct SM as (_ & _ & -> & -> & _). reflexivity. }
    cbn [rbind]. destruct (forallb _ _); [right; eauto|left; reflexivity].
  Qed.

  Lemma site_ok (S : bt) V : meta_ok S -> (forall n, In n (b_sbd S) -> 0 < n) -> dsh V = tots (legs S) ->
    (forall i, in_range (dsh V) i = true -> dv V i = rz \/ visible signif (dv V i) /\ exists cs, carried S i cs /\ qprod G cs = b_rule S) ->
    exists T, bsite signif near S V = Ok T /\ same_meta S T /\ valid T /\ dense_form T V.
  Proof.
    intros M Hp Hs H. destruct (@from_basic_exact G R S V signif M Hp Hs) as (T & E & SM & VT & HT). unfold bsite. rewrite E. cbn [rbind].
    pose proof (to_dense_spec VT) as (D & ED & HD). rewrite ED. cbn [rbind].
    assert (EL : legs T = legs S) by (unfold legs; destruct SM as (_ & _ & -> & -> & _); reflexivity).
    assert (EB : b_sbd T = b_sbd S) by (destruct SM as (_ & _ & -> & _); reflexivity).
    assert (DF : dense_form T V).
    { split; [rewrite EL; exact Hs|]. rewrite EL, EB. intros b o Hb Ho. destruct (HT b o Hb Ho) as [H1 H2].
      assert (Hi : in_range (dsh V) (place (legs S) b o) = true) by (rewrite Hs; rewrite <- (legs_lens M) in Hb; apply (place_spec _ _ _ Hb Ho)).
      destruct (signif (d_slice (origin (legs S) b) (pick 0 (legs S) b) V)) eqn:ES.
      - destruct (H _ Hi) as [Z|(_ & cs & C & Q)].
        + destruct (qeqb G (qprod G (pick (qe G) (qlegs S) b)) (b_rule S)) eqn:Eq.
          * apply qeqb_spec in Eq. rewrite H1; auto. split; [split; auto|reflexivity].
          * rewrite H2; auto. left. intros [_ A]. apply (qeqb_spec G) in A. congruence.
        + rewrite H1; auto. split; [|reflexivity]. split; [exact Hb|]. apply (@carried_pick S _ cs b o M Hb Ho eq_refl) in C. subst cs. exact Q.
      - rewrite H2 by (right; reflexivity). destruct (H _ Hi) as [Z|(HV & _)]; [exact Z|]. exfalso.
        enough (HX : true = false) by discriminate. rewrite <- ES. symmetry. apply (HV _ o); [exact Ho|]. cbn [d_slice dv].
        rewrite <- (legs_lens M) in Hb. destruct (in_range_len_pick _ _ _ Hb Ho). rewrite place_origin; auto. }
    pose proof (dense_form_unique (proj1 VT) HD DF) as [E1 E2]. rewrite allclose_same by exact E1. cbn [rbind].
    replace (forallb _ _) with true; [exists T; auto|]. symmetry. apply forallb_forall. intros i Hi. apply idxs_In in Hi. rewrite E2 by (rewrite E1; exact Hi). apply near_refl.
  Qed.

  Lemma site_bad (S : bt) V i cs : meta_ok S -> (forall n, In n (b_sbd S) -> 0 < n) -> dsh V = tots (legs S) ->
    in_range (dsh V) i = true -> carried S i cs -> qprod G cs <> b_rule S -> near rz (dv V i) = false -> bsite signif near S V = Throw InvalidArgument.
  Proof.
    intros M Hp Hs Hi C Q N. destruct (@from_basic_exact G R S V signif M Hp Hs) as (T & E & SM & VT & HT). unfold bsite. rewrite E. cbn [rbind].
    pose proof (to_dense_spec VT) as (D & ED & HD). rewrite ED. cbn [rbind].
    assert (EL : legs T = legs S) by (unfold legs; destruct SM as (_ & _ & -> & -> & _); reflexivity).
    assert (EB : b_sbd T = b_sbd S) by (destruct SM as (_ & _ & -> & _); reflexivity).
    rewrite allclose_same by (destruct HD as [-> _]; rewrite EL; symmetry; exact Hs). cbn [rbind].
    replace (forallb _ _) with false; [reflexivity|]. symmetry. apply not_true_iff_false. intros H. rewrite forallb_forall in H.
    specialize (H i (proj2 (idxs_In _ _) Hi)). rewrite Hs in Hi. destruct (unplace_spec _ _ Hi) as (U1 & U2 & U3). rewrite (legs_lens M) in U1.
    destruct HD as [_ HD]. rewrite EL, EB in HD. rewrite <- U3 in H at 1. rewrite HD in H by auto. destruct (HT _ _ U1 U2) as [_ H2]. rewrite H2 in H; [congruence|].
    left. intros [_ A]. apply (@carried_pick S _ cs _ _ M U1 U2 U3) in C. subst cs. auto.
  Qed.

  (** An element of a block that does not pass the test. *)
  Lemma site_faint (S : bt) V b o : meta_ok S -> (forall n, In n (b_sbd S) -> 0 < n) -> dsh V = tots (legs S) ->
    in_range (b_sbd S) b = true -> in_range (pick 0 (legs S) b) o = true -> signif (d_slice (origin (legs S) b) (pick 0 (legs S) b) V) = false ->
    near rz (dv V (place (legs S) b o)) = false -> bsite signif near S V = Throw InvalidArgument.
  Proof.
    intros M Hp Hs Hb Ho ES N. destruct (@from_basic_exact G R S V signif M Hp Hs) as (T & E & SM & VT & HT). unfold bsite. rewrite E. cbn [rbind].
    pose proof (to_dense_spec VT) as (D & ED & HD). rewrite ED. cbn [rbind].
    assert (EL : legs T = legs S) by (unfold legs; destruct SM as (_ & _ & -> & -> & _); reflexivity).
    assert (EB : b_sbd T = b_sbd S) by (destruct SM as (_ & _ & -> & _); reflexivity).
    rewrite allclose_same by (destruct HD as [-> _]; rewrite EL; symmetry; exact Hs). cbn [rbind].
    replace (forallb _ _) with false; [reflexivity|]. symmetry. apply not_true_iff_false. intros H. rewrite forallb_forall in H.
    assert (Hi : in_range (dsh V) (place (legs S) b o) = true) by (rewrite Hs; rewrite <- (legs_lens M) in Hb; apply (place_spec _ _ _ Hb Ho)).
    specialize (H _ (proj2 (idxs_In _ _) Hi)). destruct HD as [_ HD]. rewrite EL, EB in HD. rewrite HD in H by auto.
    destruct (HT _ _ Hb Ho) as [_ H2]. rewrite H2 in H; [congruence|]. right. exact ES.
  Qed.

  (** * The chain *)
  Lemma carries_dual (k : list nat * list G) x c : carries k x c -> carries (bdual G k) x (qinv G c).
  Proof.
    intros (b & o & H & <-). exists b, o. split; [exact H|]. cbn [bdual snd]. rewrite <- (inv_e G) at 1. apply map_nth.
  Qed.
  Lemma carries_units (lq : list G) a : a < length lq -> carries (repeat 1 (length lq), lq) a (nth a lq (qe G)).
  Proof.
    intros H. exists a, 0. split; [|reflexivity]. unfold located. cbn [fst]. rewrite repeat_length. split; [exact H|]. rewrite nth_rep by exact H. split; [lia|].
    rewrite Nat.add_0_r. clear - H. revert a H. generalize (length lq). induction n as [|n IH]; intros [|a] H; try lia; [reflexivity|]. cbn [repeat firstn]. rewrite sum_list_cons, <- IH by lia. reflexivity.
  Qed.
  Lemma carries_unit (c : G) : carries ([1], [c]) 0 c.
  Proof. exists 0, 0. split; [unfold located; cbn; lia|reflexivity]. Qed.
  Lemma units_sum k : sum_list (repeat 1 k) = k.
  Proof. induction k; cbn; auto. Qed.
  Lemma quad_iff (a b c d : G) : qprod G [a; b; qinv G c; qinv G d] = qe G <-> qop G a b = qop G c d.
  Proof.
    cbn [qprod fold_right]. rewrite qop_e_r. rewrite <- qinv_op, qop_assoc. split; intros H.
    - rewrite <- (qop_e_l G (qop G c d)), <- H, <- qop_assoc, qop_inv_l, qop_e_r. reflexivity.
    - rewrite H. apply qop_inv_r.
  Qed.
  Lemma carried4 (S : bt) x y P p q a c ca cc cp cq : blegs S = [x; P; y; bdual G P] -> carries x a ca -> carries y c cc -> carries P p cp -> carries P q cq ->
    carried S [a; p; c; q] [ca; cp; cc; qinv G cq].
  Proof.
    intros E H1 H2 H3 H4. unfold carried. rewrite E. split; [reflexivity|]. split; [reflexivity|]. intros [|[|[|[|d]]]] Hd; cbn [nth]; auto; [apply carries_dual; exact H4|cbn in Hd; lia].
  Qed.
  Lemma blegs_legs (S : bt) : meta_ok S -> legs S = map fst (blegs S).
  Proof.
    intros M. unfold blegs. pose proof (legs_length M) as L1. pose proof (qlegs_length M) as L2. rewrite <- L2 in L1. revert L1. generalize (qlegs S). induction (legs S) as [|l L IH]; intros [|q Q] H; try discriminate; cbn; [reflexivity|].
    f_equal. apply IH. cbn in H. lia.
  Qed.
  Lemma sbd_pos (S : bt) : meta_ok S -> nonempty S -> forall n, In n (b_sbd S) -> 0 < n.
  Proof. intros M H n Hn. rewrite <- (legs_lens M) in Hn. apply in_map_iff in Hn as (l & <- & Hl). specialize (H l Hl). destruct l; cbn in *; lia. Qed.
  Lemma range4 n1 n2 n3 n4 i : in_range [n1; n2; n3; n4] i = true -> exists a b c d, i = [a; b; c; d] /\ a < n1 /\ b < n2 /\ c < n3 /\ d < n4.
  Proof.
    intros H. pose proof (in_range_length _ _ H) as E. destruct i as [|a [|b [|c [|d [|]]]]]; try discriminate E. exists a, b, c, d.
    cbn in H. rewrite !andb_true_iff, !Nat.ltb_lt in H. intuition.
  Qed.
  Lemma range4' n1 n2 n3 n4 a b c d : a < n1 -> b < n2 -> c < n3 -> d < n4 -> in_range [n1; n2; n3; n4] [a; b; c; d] = true.
  Proof. intros. cbn. rewrite !andb_true_iff, !Nat.ltb_lt. auto. Qed.

  Section Chain.
    Variables (P : list nat * list G) (lq : list G) (S : bt) (cp : nat -> G) (W : dense R).
    Notation d := (sum_list (fst P)).
    Notation K := (length lq).
    Notation L := (repeat 1 K, lq).
    Hypothesis HK : 0 < K.
    Hypothesis Hd : 0 < d.
    Hypothesis HS : valid S.
    Hypothesis HB : b_blocks S = [].
    Hypothesis HR : b_rule S = qe G.
    Hypothesis HL : blegs S = [L; P; bdual G L; bdual G P].
    Hypothesis Hcp : forall p, p < d -> carries P p (cp p).
    Hypothesis HW : dsh W = [K; d; K; d].
    Let qa a := nth a lq (qe G).
    Definition chain m := trim_left (K - 1) W :: repeat W m ++ [trim_right W].

    Lemma S_legs : legs S = [repeat 1 K; fst P; repeat 1 K; fst P] /\ qlegs S = [lq; snd P; map (qinv G) lq; map (qinv G) (snd P)].
    Proof.
      split; [rewrite (blegs_legs (proj1 HS)), HL; reflexivity|]. assert (E : qlegs S = map snd (blegs S)); [|rewrite E, HL; reflexivity].
      unfold blegs. pose proof (legs_length (proj1 HS)) as L1. pose proof (qlegs_length (proj1 HS)) as L2. rewrite <- L2 in L1. revert L1. generalize (qlegs S). clear. induction (legs S) as [|l L IH]; intros [|q Q] H; try discriminate; cbn; [reflexivity|].
      f_equal. apply IH. cbn in H. lia.
    Qed.
    Lemma S_nonempty : nonempty S.
    Proof. intros l. rewrite (proj1 S_legs). intros [<-|[<-|[<-|[<-|[]]]]]; rewrite ?units_sum; auto. Qed.
    Lemma front_shape : exists V, basic_create_view S [Z.of_nat K - 1; -1; -1; -1]%Z true = Ok V /\ valid V /\ b_rule V = qe G /\ nonempty V /\
      blegs V = [([1], [qa (K - 1)]); P; bdual G L; bdual G P].
    Proof.
      destruct S_legs as [E1 E2]. replace (Z.of_nat K - 1)%Z with (Z.of_nat (K - 1)) by lia.
      change [Z.of_nat (K - 1); -1; -1; -1]%Z with (zpat [Some (K - 1); None; None; None]).
      destruct (@view_keep G R S [Some (K - 1); None; None; None] HS S_nonempty) as (V & EV & VV & RV & LV & QV & _).
      { rewrite E1. cbn. rewrite units_sum. split; [lia|exact I]. }
      { intros i Hi H. exfalso. apply (H 3); [cbn in *; lia|reflexivity]. }
      destruct (QV [Some (K - 1); None; None; None] [Some 0; None; None; None]) as [Q1 _].
      { rewrite E1. cbn. split; [|exact I]. destruct (@carries_units lq (K - 1)) as (b & o & H & _); [lia|]. cbn [fst] in H.
        pose proof H as (H1 & H2 & H3). rewrite repeat_length in H1. rewrite nth_rep in H2 by exact H1. assert (o = 0) by lia. subst o.
        assert (b = K - 1); [|subst b; exact H]. clear -H1 H3. rewrite Nat.add_0_r in H3. rewrite H3. clear H3. revert b H1. generalize K. induction n as [|n IH]; intros [|b] H1; try lia; [reflexivity|]. cbn [repeat firstn]. rewrite sum_list_cons. rewrite <- IH by lia. reflexivity. }
      exists V. split; [exact EV|]. split; [exact VV|]. split; [congruence|]. rewrite E1 in LV. rewrite E2 in Q1. cbn [stay qstay map2] in LV, Q1. split.
      - intros l. rewrite LV. intros [<-|[<-|[<-|[<-|[]]]]]; rewrite ?units_sum; auto; try (cbn; lia).
      - unfold blegs. rewrite LV, Q1. cbn [combine bdual fst snd]. destruct P; reflexivity.
    Qed.
    Lemma back_shape : exists V, basic_create_view S [-1; -1; 0; -1]%Z true = Ok V /\ valid V /\ b_rule V = qe G /\ nonempty V /\
      blegs V = [L; P; ([1], [qinv G (qa 0)]); bdual G P].
    Proof.
      destruct S_legs as [E1 E2]. change [-1; -1; 0; -1]%Z with (zpat [None; None; Some 0; None]).
      destruct (@view_keep G R S [None; None; Some 0; None] HS S_nonempty) as (V & EV & VV & RV & LV & QV & _).
      { rewrite E1. cbn. rewrite units_sum. split; [lia|exact I]. }
      { intros i Hi H. exfalso. apply (H 3); [cbn in *; lia|reflexivity]. }
      destruct (QV [None; None; Some 0; None] [None; None; Some 0; None]) as [Q1 _].
      { rewrite E1. cbn. split; [|exact I]. unfold located. rewrite repeat_length, nth_rep by lia. cbn. lia. }
      exists V. split; [exact EV|]. split; [exact VV|]. split; [congruence|]. rewrite E1 in LV. rewrite E2 in Q1. cbn [stay qstay map2] in LV, Q1. split.
      - intros l. rewrite LV. intros [<-|[<-|[<-|[<-|[]]]]]; rewrite ?units_sum; auto; try (cbn; lia).
      - unfold blegs. rewrite LV, Q1. cbn [combine bdual fst snd]. unfold qa. rewrite <- (inv_e G) at 1. rewrite map_nth. destruct P; reflexivity.
    Qed.

    Lemma tots4 (V : bt) x y : valid V -> blegs V = [x; P; y; bdual G P] -> tots (legs V) = [sum_list (fst x); d; sum_list (fst y); d].
    Proof. intros HV E. rewrite (blegs_legs (proj1 HV)), E. reflexivity. Qed.
    Lemma left_dsh : dsh (trim_left (K - 1) W) = [1; d; K; d]. Proof. unfold trim_left. rewrite HW. reflexivity. Qed.
    Lemma right_dsh : dsh (trim_right W) = [K; d; 1; d]. Proof. unfold trim_right. rewrite HW. reflexivity. Qed.
    Lemma left_dv p c q : dv (trim_left (K - 1) W) [0; p; c; q] = dv W [K - 1; p; c; q].
    Proof. unfold trim_left. rewrite HW. cbn. rewrite Nat.add_0_r. reflexivity. Qed.
    Lemma right_dv a p q : dv (trim_right W) [a; p; 0; q] = dv W [a; p; 0; q].
    Proof. unfold trim_right. rewrite HW. reflexivity. Qed.

    (** A site with the given shape. *)
    Lemma site4_ok (V : bt) x y na nc ca cc X : valid V -> b_rule V = qe G -> nonempty V -> blegs V = [x; P; y; bdual G P] -> sum_list (fst x) = na -> sum_list (fst y) = nc ->
      dsh X = [na; d; nc; d] -> (forall a, a < na -> carries x a (ca a)) -> (forall c, c < nc -> carries y c (qinv G (cc c))) ->
      (forall a p c q, a < na -> p < d -> c < nc -> q < d -> dv X [a; p; c; q] = rz \/ visible signif (dv X [a; p; c; q]) /\ qop G (ca a) (cp p) = qop G (cc c) (cp q)) ->
      exists T, bsite signif near V X = Ok T /\ valid T /\ dense_form T X /\ b_rule T = qe G /\ blegs T = blegs V.
    Proof.
      intros VV RV NV EV <- <- EX H1 H2 H. pose proof (proj1 VV) as M. destruct (@site_ok V X M (sbd_pos M NV)) as (T & ET & SM & VT & DT).
      { rewrite (tots4 VV EV). exact EX. }
      { intros i Hi. rewrite EX in Hi. apply range4 in Hi as (a & p & c & q & -> & Ha & Hp & Hc & Hq). destruct (H a p c q Ha Hp Hc Hq) as [Z|[Vi Q]]; [left; exact Z|right].
        split; [exact Vi|]. exists [ca a; cp p; qinv G (cc c); qinv G (cp q)]. split; [eapply carried4; eauto|]. rewrite RV. apply quad_iff, Q. }
      exists T. split; [exact ET|]. split; [exact VT|]. split; [exact DT|]. destruct SM as (<- & _ & E1 & E2 & E3). split; [exact RV|]. unfold blegs, legs, qlegs. rewrite E1, E2, E3. reflexivity.
    Qed.
    Lemma site4_dich (V : bt) x y X : valid V -> nonempty V -> blegs V = [x; P; y; bdual G P] -> dsh X = [sum_list (fst x); d; sum_list (fst y); d] ->
      bsite signif near V X = Throw InvalidArgument \/ exists T, bsite signif near V X = Ok T.
    Proof.
      intros VV NV EV EX. pose proof (proj1 VV) as M. destruct (@site_dich V X M (sbd_pos M NV)) as [E|(T & E & _)]; eauto. rewrite (tots4 VV EV). exact EX.
    Qed.

    Definition x0 := bdual G ([1], [qa (K - 1)]).
    Definition y0 : list nat * list G := ([1], [qinv G (qa 0)]).
    Variable PT : bt.
    Hypothesis HPT : nth 0 (blegs PT) ([], []) = P.

    Theorem to_bMPO_ok m :
      (forall a p c q, a < K -> p < d -> c < K -> q < d -> dv W [a; p; c; q] = rz \/ visible signif (dv W [a; p; c; q]) /\ qop G (qa a) (cp p) = qop G (qa c) (cp q)) ->
      exists Ts, to_bMPO signif near (chain m) S = Ok Ts /\ block_mpo PT Ts (chain m) x0 y0 /\ inner_bonds Ts (bdual G L).
    Proof.
      intros H. destruct front_shape as (VF & EF & V1 & R1 & N1 & B1). destruct back_shape as (VB & EB & V2 & R2 & N2 & B2).
      assert (HLu : forall a, a < K -> carries L a (qa a)) by (intros; apply carries_units; auto).
      assert (HLd : forall c, c < K -> carries (bdual G L) c (qinv G (qa c))) by (intros; apply carries_dual, carries_units; auto).
      destruct (@site4_ok VF _ _ 1 K (fun _ => qa (K - 1)) qa (trim_left (K - 1) W) V1 R1 N1 B1 eq_refl (units_sum K) left_dsh) as (F & EF' & F1 & F2 & F3 & F4); [|exact HLd| |].
      { intros a Ha. assert (a = 0) by lia. subst a. apply carries_unit. }
      { intros a p c q Ha Hp Hc Hq. assert (a = 0) by lia. subst a. rewrite left_dv. apply H; auto. lia. }
      destruct (@site4_ok VB _ _ K 1 qa (fun _ => qa 0) (trim_right W) V2 R2 N2 B2 (units_sum K) eq_refl right_dsh HLu) as (B & EB' & F1' & F2' & F3' & F4').
      { intros a Ha. assert (a = 0) by lia. subst a. apply carries_unit. }
      { intros a p c q Ha Hp Hc Hq. assert (c = 0) by lia. subst c. rewrite right_dv. apply H; auto. }
      destruct (@site4_ok S _ _ K K qa qa W HS HR S_nonempty HL (units_sum K) (units_sum K) HW HLu HLd H) as (T & ET & T1 & T2 & T3 & T4).
      assert (EM : rmapM (bsite signif near S) (repeat W m) = Ok (repeat T m)).
      { clear -ET. induction m as [|m IH]; [reflexivity|]. cbn [repeat rmapM]. rewrite ET. cbn [rbind]. rewrite IH. reflexivity. }
      exists (F :: repeat T m ++ [B]). split.
      - unfold to_bMPO, chain. destruct (repeat W m ++ [trim_right W]) as [|w r] eqn:Er; [destruct m; discriminate|].
        assert (ES : sizes S = [K; d; K; d]) by (rewrite sizes_tots by apply HS; rewrite (proj1 S_legs); cbn; rewrite units_sum; reflexivity). rewrite ES. cbn [rnth nth_error rbind].
        rewrite EF. cbn [rbind]. rewrite EF'. cbn [rbind]. rewrite <- Er, removelast_last, EM. cbn [rbind]. rewrite EB. cbn [rbind]. rewrite last_last, EB'. reflexivity.
      - split; [|intros [|i] X EX HX; [injection EX as <-; rewrite F4, B1; reflexivity|]; cbn in EX, HX; rewrite app_length, repeat_length in HX; cbn in HX; rewrite nth_error_app1 in EX by (rewrite repeat_length; lia);
          apply nth_error_In, repeat_spec in EX; subst X; rewrite T4, HL; reflexivity].
        unfold chain. cbn [block_mpo]. rewrite HPT. split; [exact F1|]. split; [exact F2|]. split; [exact F3|]. exists (bdual G L). split; [rewrite F4, B1; unfold x0; rewrite bdual_dual; reflexivity|].
        clear EM. induction m as [|m IH]; cbn [repeat app block_mpo]; rewrite HPT.
        + split; [exact F1'|]. split; [exact F2'|]. split; [exact F3'|]. exists y0. split; [|reflexivity]. rewrite F4', B2, bdual_dual. reflexivity.
        + split; [exact T1|]. split; [exact T2|]. split; [exact T3|]. exists (bdual G L). split; [rewrite T4, HL, bdual_dual; reflexivity|exact IH].
    Qed.

    Theorem to_bMPO_bad m a p q : a < K -> p < d -> q < d -> near rz (dv W [a; p; 0; q]) = false -> qop G (qa a) (cp p) <> qop G (qa 0) (cp q) ->
      to_bMPO signif near (chain m) S = Throw InvalidArgument.
    Proof.
      intros Ha Hp Hq HN HQ. destruct front_shape as (VF & EF & V1 & R1 & N1 & B1). destruct back_shape as (VB & EB & V2 & R2 & N2 & B2).
      unfold to_bMPO, chain. destruct (repeat W m ++ [trim_right W]) as [|w r] eqn:Er; [destruct m; discriminate|].
      assert (ES : sizes S = [K; d; K; d]) by (rewrite sizes_tots by apply HS; rewrite (proj1 S_legs); cbn; rewrite units_sum; reflexivity). rewrite ES. cbn [rnth nth_error rbind].
      rewrite EF. cbn [rbind]. destruct (@site4_dich VF _ _ (trim_left (K - 1) W) V1 N1 B1) as [E|[F E]]; [rewrite left_dsh; cbn [fst bdual]; rewrite units_sum; reflexivity|rewrite E; reflexivity|].
      rewrite E. cbn [rbind]. rewrite <- Er, removelast_last.
      assert (EM : rmapM (bsite signif near S) (repeat W m) = Throw InvalidArgument \/ exists l, rmapM (bsite signif near S) (repeat W m) = Ok l).
      { destruct (@site4_dich S _ _ W HS S_nonempty HL) as [ET|[T ET]]; [rewrite HW; cbn [fst bdual]; rewrite units_sum; reflexivity| |]; clear -ET.
        - destruct m as [|m]; [right; exists []; reflexivity|left]. cbn [repeat rmapM]. rewrite ET. reflexivity.
        - right. exists (repeat T m). induction m as [|m IH]; [reflexivity|]. cbn [repeat rmapM]. rewrite ET. cbn [rbind]. rewrite IH. reflexivity. }
      destruct EM as [->|[l ->]]; [reflexivity|]. cbn [rbind]. rewrite EB. cbn [rbind]. rewrite last_last.
      rewrite (@site_bad VB (trim_right W) [a; p; 0; q] [qa a; cp p; qinv G (qa 0); qinv G (cp q)]); [reflexivity|apply V2|apply sbd_pos; [apply V2|exact N2]|rewrite (tots4 V2 B2), right_dsh; cbn [fst]; rewrite units_sum; reflexivity| | | |].
      - rewrite right_dsh. apply range4'; auto.
      - eapply carried4; [exact B2|apply carries_units; exact Ha|apply carries_unit|auto|auto].
      - rewrite R2. intros E'. apply quad_iff in E'. auto.
      - rewrite right_dv. exact HN.
    Qed.
    (** An element of the first site whose block is dropped. *)
    Theorem to_bMPO_faint m p c q : p < d -> c < K -> q < d -> near rz (dv W [K - 1; p; c; q]) = false ->
      (forall D, (exists f : list nat -> nat * nat, (forall i j, in_range (dsh D) i = true -> in_range (dsh D) j = true -> f i = f j -> i = j) /\
          forall i, in_range (dsh D) i = true -> fst (f i) < d /\ snd (f i) < d /\ dv D i = dv W [K - 1; fst (f i); c; snd (f i)]) -> signif D = false) ->
      to_bMPO signif near (chain m) S = Throw InvalidArgument.
    Proof.
      intros Hp Hc Hq HN HD. destruct front_shape as (VF & EF & V1 & R1 & N1 & B1). unfold to_bMPO, chain. destruct (repeat W m ++ [trim_right W]) as [|w r] eqn:Er; [destruct m; discriminate|].
      assert (ES : sizes S = [K; d; K; d]) by (rewrite sizes_tots by apply HS; rewrite (proj1 S_legs); cbn; rewrite units_sum; reflexivity). rewrite ES. cbn [rnth nth_error rbind].
      rewrite EF. cbn [rbind]. pose proof (proj1 V1) as M. pose proof (tots4 V1 B1) as ET. cbn [fst bdual] in ET. rewrite units_sum in ET. change (sum_list [1]) with 1 in ET.
      assert (Hi : in_range (tots (legs VF)) [0; p; c; q] = true) by (rewrite ET; apply range4'; auto; lia).
      destruct (unplace_spec _ _ Hi) as (U1 & U2 & U3). rewrite (legs_lens M) in U1.
      assert (EL : legs VF = [[1]; fst P; repeat 1 K; fst P]) by (rewrite (blegs_legs M), B1; reflexivity).
      rewrite (@site_faint VF (trim_left (K - 1) W) _ _ M (sbd_pos M N1)) with (1 := eq_trans left_dsh (eq_sym ET)) (2 := U1) (3 := U2); [reflexivity| |rewrite U3, left_dv; exact HN].
      rewrite <- (legs_lens M) in U1. set (b := blkL (legs VF) [0; p; c; q]) in *.
      assert (X : forall i, in_range (pick 0 (legs VF) b) i = true -> exists p' q', p' < d /\ q' < d /\ place (legs VF) b i = [0; p'; c; q']).
      { intros i Hii. destruct (place_spec _ _ _ U1 Hii) as (R0 & R3 & _). rewrite ET in R0.
        apply range4 in R0 as (a' & p' & c' & q' & Epl & Ha & Hp' & Hc' & Hq'). assert (a' = 0) by lia. subst a'.
        assert (Ec : c' = c).
        { rewrite Epl in R3. rewrite EL in R3. unfold b in R3. rewrite EL in R3. apply (f_equal (fun l => nth 2 l 0)) in R3. cbn [blkL map2 nth] in R3.
          destruct (@carries_units lq c Hc) as (b1 & o1 & L1 & _). destruct (@carries_units lq c' Hc') as (b2 & o2 & L2 & _). cbn [fst] in L1, L2.
          rewrite (find_section_unique L1), (find_section_unique L2) in R3. cbn [fst] in R3. subst b2. destruct L1 as (X1 & X2 & X3), L2 as (Y1 & Y2 & Y3).
          rewrite repeat_length in X1. rewrite nth_rep in X2, Y2 by exact X1. lia. }
        subst c'. exists p', q'. auto. }
      apply HD. cbn [d_slice dsh dv]. exists (fun i => (nth 1 (place (legs VF) b i) 0, nth 3 (place (legs VF) b i) 0)). split.
      - intros i j Hii Hij. destruct (X i Hii) as (pi & qi & _ & _ & Ei). destruct (X j Hij) as (pj & qj & _ & _ & Ej). rewrite Ei, Ej. cbn [nth]. intros [= -> ->].
        destruct (place_spec _ _ _ U1 Hii) as (_ & _ & <-). destruct (place_spec _ _ _ U1 Hij) as (_ & _ & <-). rewrite Ei, Ej. reflexivity.
      - intros i Hii. destruct (X i Hii) as (pi & qi & Hpi & Hqi & Ei). rewrite Ei. cbn [nth fst snd]. split; [exact Hpi|]. split; [exact Hqi|].
        destruct (in_range_len_pick _ _ _ U1 Hii) as [l1 l2]. rewrite <- place_origin by auto. rewrite Ei. apply left_dv.
    Qed.
  End Chain.
End P.
