(** Proofs about the operators with conserved quantities. *)
From Verif Require Import Base Quantity QuantityProofs FlatMap SpecFlatMap FlatMapProofs Ring Index SpecIndex Dense IndexProofs BTensor SpecBTensor LegsProofs
  BTensorProofs BTensorThms BTensorThms2 SelRule SelRuleProofs SpecChain SpecSector SectorThms Models SpecModels SpecModelsBlock ModelsBlockProofs OpsBlock SpecOps.
From Coq Require Import Lia.
Set Implicit Arguments.

Section P.
  Context {G : abgroup} {R : ring}.
  Add Ring Rr : (ring_th R).
  Variable big : R -> bool.
  Variable signif : dense R -> bool.
  Notation bt := (btensor G R).
  Hypothesis Hbig : forall x, big x = false <-> x = rz.


  Lemma big_true x : big x = true <-> x <> rz.
  Proof. split; [intros E H; apply Hbig in H; congruence|]. intros H. destruct (big x) eqn:E; [reflexivity|]. apply Hbig in E. tauto. Qed.

  Lemma operator_spec (T : bt) t : meta_ok T -> b_blocks T = [] -> b_rank T = 2 -> (forall n, In n (b_sbd T) -> 0 < n) -> dsh t = map sum_list (legs T) ->
    (forall i, in_range (dsh t) i = true -> dv t i = rz \/ visible signif (dv t i)) ->
    (exists C, b_operator big signif T t = Ok C /\ valid C /\ blegs C = blegs T /\ dense_form C t /\ definite T t (b_rule C)) \/
    (b_operator big signif T t = Throw LogicError /\ forall r, ~ definite T t r).
  Proof.
    intros M HB HR HP HS HV. unfold b_operator. destruct (@find_rule_spec G R big T t M HR HS) as [(r & E & H1 & H2)|(E & b & o & b' & o' & B1 & O1 & B2 & O2 & X1 & X2 & NE)]; rewrite E; cbn [rbind].
    - left. unfold set_selection_rule_, is_empty. rewrite HB. cbn [rbind]. set (T' := with_rule T r).
      destruct (@from_basic_dense G R T' t signif M (prod_pos _ HP) HS) as (C & EC & (S1 & S2 & S3 & S4 & S5) & VC & HC).
      exists C. split; [exact EC|]. split; [exact VC|]. assert (L : legs C = legs T) by (unfold legs; rewrite <- S3, <- S4; reflexivity). assert (Q : qlegs C = qlegs T) by (unfold qlegs; rewrite <- S3, <- S5; reflexivity).
      split; [unfold blegs; rewrite L, Q; reflexivity|].
      assert (DEF : definite T t r).
      { intros i cs Hi HC' NZ. rewrite HS in Hi. destruct (unplace_spec _ _ Hi) as (U1 & U2 & U3). rewrite (legs_lens M) in U1.
        apply (@carried_pick G R T i cs _ _ M U1 U2 U3) in HC'. subst cs. eapply H1; eauto. rewrite U3. apply big_true. exact NZ. }
      split; [|cbn in S1; rewrite <- S1; exact DEF].
      split; [rewrite HS, L; reflexivity|]. intros b o Hb Ho. rewrite L in *. rewrite <- S3 in Hb. cbn [b_sbd T' with_rule] in Hb.
      rewrite HC by auto. change (legs T') with (legs T). destruct (allowedb T' b) eqn:EA; cbn [andb].
      + destruct (signif _) eqn:ES; [reflexivity|]. rewrite <- (legs_lens M) in Hb. destruct (in_range_len_pick _ _ _ Hb Ho).
        destruct (HV (place (legs T) b o)) as [Z|VI]; [rewrite HS; apply (@place_spec (legs T) b o Hb Ho)|exact Z|].
        rewrite (VI (d_slice (origin (legs T) b) (pick 0 (legs T) b) t) o Ho) in ES; [discriminate|]. cbn [d_slice dv]. rewrite place_origin by auto. reflexivity.
      + destruct (big (dv t (place (legs T) b o))) eqn:EB; [|apply Hbig; exact EB].
        exfalso. specialize (H1 b o Hb Ho EB). assert (A : allowed T' b) by (split; [exact Hb|exact H1]). apply allowed_spec in A as [_ A]. congruence.
    - right. split; [reflexivity|]. intros r D. apply NE. rewrite <- (legs_lens M) in B1, B2. destruct (@place_spec (legs T) b o B1 O1) as (P1 & _ & _). destruct (@place_spec (legs T) b' o' B2 O2) as (P2 & _ & _).
      rewrite (legs_lens M) in B1, B2. fold (tots (legs T)) in HS. rewrite <- HS in P1, P2.
      transitivity r; [|symmetry].
      + eapply D; [exact P1| |apply big_true; exact X1]. apply (@carried_pick G R T _ _ b o M B1 O1 eq_refl). reflexivity.
      + eapply D; [exact P2| |apply big_true; exact X2]. apply (@carried_pick G R T _ _ b' o' M B2 O2 eq_refl). reflexivity.
  Qed.

  (** Operators on one space. *)
  Section Space.
    Variable x : list nat * list G.
    Variable T : bt.
    Hypothesis HT : op_shape x T.
    Let n := sum_list (fst x).
    Hypothesis Hn : 0 < n.
    Lemma T_rank : b_rank T = 2.
    Proof. destruct HT as (M & _ & E). unfold blegs in E. pose proof (legs_length M) as L1. pose proof (qlegs_length M) as L2. apply (f_equal (@length _)) in E. rewrite combine_length in E. cbn in E. lia. Qed.
    Lemma T_legs : legs T = [fst x; fst x].
    Proof.
      destruct HT as (M & _ & E). unfold blegs in E. pose proof (legs_length M) as L1. pose proof (qlegs_length M) as L2. rewrite T_rank in *.
      destruct (legs T) as [|a [|b [|]]]; try discriminate. destruct (qlegs T) as [|c [|d [|]]]; try discriminate. cbn in E. injection E as <- E1 E2. cbn. rewrite E1. reflexivity.
    Qed.
    Lemma T_pos k : In k (b_sbd T) -> 0 < k.
    Proof. destruct HT as (M & _ & _). rewrite <- (legs_lens M), T_legs. cbn. intros [<-|[<-|[]]]; unfold n in Hn; destruct (fst x); cbn in *; lia. Qed.
    Lemma T_carried i j a b : carries x i a -> carries x j b -> carried T [i; j] [a; qinv G b].
    Proof.
      intros H1 H2. destruct HT as (_ & _ & E). unfold carried. rewrite E. split; [reflexivity|]. split; [reflexivity|].
      intros [|[|d]] Hd; cbn [nth]; [exact H1|apply carries_dual; exact H2|cbn in Hd; lia].
    Qed.
    Variable c : nat -> G.
    Hypothesis Hc : forall i, i < n -> carries x i (c i).
    Lemma definite_iff t r : dsh t = [n; n] -> definite T t r <-> forall i j, i < n -> j < n -> dv t [i; j] <> rz -> qop G (c i) (qinv G (c j)) = r.
    Proof.
      intros HS. split.
      - intros D i j Hi Hj NZ. rewrite <- (D [i; j] [c i; qinv G (c j)]); [cbn; rewrite qop_e_r; reflexivity|rewrite HS; cbn; rewrite (proj2 (Nat.ltb_lt i n) Hi), (proj2 (Nat.ltb_lt j n) Hj); reflexivity|apply T_carried; auto|exact NZ].
      - intros H i cs Hi HC NZ. rewrite HS in Hi. destruct i as [|i [|j [|]]]; try discriminate.
        { cbn in Hi. apply andb_true_iff in Hi as [_ Hi]. discriminate. }
        2:{ cbn in Hi. apply andb_true_iff in Hi as [_ Hi]. apply andb_true_iff in Hi as [_ Hi]. discriminate. }
        cbn in Hi. rewrite andb_true_r, andb_true_iff, !Nat.ltb_lt in Hi. destruct Hi as [Hi Hj]. rewrite <- (H i j Hi Hj NZ).
        destruct (T_carried (Hc Hi) (Hc Hj)) as (_ & _ & H2). destruct HC as (_ & L & H1). destruct HT as (_ & _ & E). rewrite E in *. destruct cs as [|a [|b [|]]]; try discriminate.
        assert (Ea : a = c i) by (eapply carries_fun; [apply (H1 0); cbn; lia|apply (H2 0); cbn; lia]).
        assert (Eb : b = qinv G (c j)) by (eapply carries_fun; [apply (H1 1); cbn; lia|apply (H2 1); cbn; lia]).
        subst. cbn. rewrite qop_e_r. reflexivity.
    Qed.
    Lemma op_good t r i j : dsh t = [n; n] -> (forall i, in_range (dsh t) i = true -> dv t i = rz \/ visible signif (dv t i)) -> definite T t r -> i < n -> j < n -> dv t [i; j] <> rz -> exists C, b_operator big signif T t = Ok C /\ op_is x t r C.
    Proof.
      intros HS HV D Hi Hj NZ. destruct HT as (M & HB & E). destruct (@operator_spec T t M HB T_rank T_pos) as [(C & EC & VC & BC & DC & RC)|(EC & N)]; [rewrite T_legs, HS; reflexivity|exact HV| |exfalso; eapply N; exact D].
      exists C. split; [exact EC|]. split; [exact VC|]. split; [congruence|]. split; [exact DC|].
      pose proof (proj1 (@definite_iff t r HS) D) as D1. pose proof (proj1 (@definite_iff t (b_rule C) HS) RC) as D2. rewrite <- (D1 i j Hi Hj NZ). symmetry. apply D2; auto.
    Qed.
    Lemma op_bad t : dsh t = [n; n] -> (forall i, in_range (dsh t) i = true -> dv t i = rz \/ visible signif (dv t i)) -> (forall r, ~ definite T t r) -> b_operator big signif T t = Throw LogicError.
    Proof.
      intros HS HV N. destruct HT as (M & HB & E). destruct (@operator_spec T t M HB T_rank T_pos) as [(C & EC & VC & BC & DC & RC)|(EC & _)]; [rewrite T_legs, HS; reflexivity|exact HV| |exact EC].
      exfalso. eapply N; exact RC.
    Qed.
  End Space.

  Hypothesis one_nz : (ro : R) <> rz.
  Hypothesis v1 : visible signif ro.
  Hypothesis v2 : visible signif (ropp ro).
  Lemma v3 : visible signif (ropp (ropp ro)).
  Proof. replace (ropp (ropp ro) : R) with (ro : R) by ring. exact v1. Qed.
  (** The non-zero elements of the operators are 1 and -1. *)
  Definition units (t : dense R) : Prop := forall i, in_range (dsh t) i = true -> dv t i = rz \/ visible signif (dv t i).
  Lemma opp_nz : ropp (ro : R) <> rz.
  Proof. intros H. apply one_nz. replace (ro : R) with (ropp (ropp ro) : R) by ring. rewrite H. ring. Qed.
  Lemma oppopp_nz : ropp (ropp (ro : R)) <> rz.
  Proof. intros H. apply one_nz. replace (ro : R) with (ropp (ropp ro) : R) by ring. exact H. Qed.

  Ltac unit2 := intros i Hi; destruct i as [|[|[|i]] [|[|[|j]] [|]]]; try discriminate Hi;
    first [left; reflexivity|right; exact v1|right; exact v2|right; exact v3].
  Ltac unit4 := intros i Hi; destruct i as [|[|[|[|[|i]]]] [|[|[|[|[|j]]]] [|]]]; try discriminate Hi;
    first [left; reflexivity|right; exact v1|right; exact v2|right; exact v3].
  Theorem pauli_block x (T : bt) p0 p1 sx isy sz lo id : op_shape x T -> sum_list (fst x) = 2 -> carries x 0 p0 -> carries x 1 p1 -> pauli (R := R) = (sx, isy, sz, lo, id) ->
    exists Sz Lo Id, b_pauli big signif T = Ok (Sz, Lo, Id) /\ op_is x sz (qe G) Sz /\ op_is x lo (qop G p0 (qinv G p1)) Lo /\ op_is x id (qe G) Id.
  Proof.
    intros HT H2 C0 C1 HP. injection HP as <- <- <- <- <-. set (c := fun i => match i with 0 => p0 | _ => p1 end).
    assert (Hc : forall i, i < sum_list (fst x) -> carries x i (c i)) by (intros [|[|i]] Hi; cbn; auto; lia).
    assert (Hn : 0 < sum_list (fst x)) by lia.
    unfold b_pauli, pauli. set (sz := assigned 2 [(1, 1, - ro); (0, 0, - - ro)]%R%nat). set (lo := assigned 2 [(0, 1, ro)]). set (id := assigned 2 [(1, 1, ro); (0, 0, ro)]).
    assert (D : forall t r, dsh t = [2; 2] -> (forall i j, i < 2 -> j < 2 -> dv t [i; j] <> rz -> qop G (c i) (qinv G (c j)) = r) -> definite T t r).
    { intros t r HS H. apply (@definite_iff x T HT Hn c Hc t r); rewrite H2; auto. }
    assert (X : forall t r i j, dsh t = [2; 2] -> (forall i j, i < 2 -> j < 2 -> dv t [i; j] <> rz -> qop G (c i) (qinv G (c j)) = r) -> i < 2 -> j < 2 -> dv t [i; j] <> rz -> units t -> exists C, b_operator big signif T t = Ok C /\ op_is x t r C).
    { intros t r i j HS H Hi Hj NZ U. unfold units in U. apply (@op_good x T HT Hn c Hc t r i j); rewrite ?H2; auto. }
    destruct (X sz (qe G) 1 1) as (Sz & -> & HSz); [reflexivity| |lia|lia|exact opp_nz|unit2|].
    { intros [|[|i]] [|[|j]] Hi Hj NZ; try lia; try (exfalso; apply NZ; reflexivity); apply qop_inv_r. }
    destruct (X lo (qop G p0 (qinv G p1)) 0 1) as (Lo & -> & HLo); [reflexivity| |lia|lia|exact one_nz|unit2|].
    { intros [|[|i]] [|[|j]] Hi Hj NZ; try lia; try (exfalso; apply NZ; reflexivity); reflexivity. }
    destruct (X id (qe G) 1 1) as (Id & -> & HId); [reflexivity| |lia|lia|exact one_nz|unit2|].
    { intros [|[|i]] [|[|j]] Hi Hj NZ; try lia; try (exfalso; apply NZ; reflexivity); apply qop_inv_r. }
    cbn [rbind]. exists Sz, Lo, Id. auto.
  Qed.

  Lemma ratio_eq (a b c d : G) : qop G a (qinv G b) = qop G c (qinv G d) <-> qop G a d = qop G b c.
  Proof.
    split; intros H.
    - assert (K : qop G (qop G (qop G a (qinv G b)) b) d = qop G (qop G (qop G c (qinv G d)) b) d) by (rewrite H; reflexivity).
      rewrite <- (qop_assoc G a), qop_inv_l, qop_e_r in K. rewrite K. rewrite <- (qop_assoc G (qop G c (qinv G d))). rewrite (qop_comm G b d). rewrite qop_assoc. rewrite <- (qop_assoc G c), qop_inv_l, qop_e_r. apply qop_comm.
    - assert (K : qop G (qop G (qop G a d) (qinv G b)) (qinv G d) = qop G (qop G (qop G b c) (qinv G b)) (qinv G d)) by (rewrite H; reflexivity).
      rewrite (qop_comm G b c) in K. rewrite <- (qop_assoc G c b) in K. rewrite qop_inv_r, qop_e_r in K. rewrite <- K.
      rewrite <- (qop_assoc G a d). rewrite (qop_comm G d). rewrite <- (qop_assoc G a). rewrite <- (qop_assoc G (qinv G b)), qop_inv_r, qop_e_r. reflexivity.
  Qed.
  Section Fermi.
    Variables (x : list nat * list G) (T : bt) (p0 p1 p2 p3 : G) (c_up c_dn F id : dense R).
    Hypothesis HT : op_shape x T.
    Hypothesis H4 : sum_list (fst x) = 4.
    Hypothesis C0 : carries x 0 p0.
    Hypothesis C1 : carries x 1 p1.
    Hypothesis C2 : carries x 2 p2.
    Hypothesis C3 : carries x 3 p3.
    Hypothesis HP : fermions (R := R) = (c_up, c_dn, F, id).
    Let c := fun i => match i with 0 => p0 | 1 => p1 | 2 => p2 | _ => p3 end.
    Lemma Fc i : i < sum_list (fst x) -> carries x i (c i). Proof. destruct i as [|[|[|[|i]]]]; intros Hi; cbn; auto; lia. Qed.
    Lemma Fn : 0 < sum_list (fst x). Proof. lia. Qed.
    Lemma FD t r : dsh t = [4; 4] -> definite T t r <-> (forall i j, i < 4 -> j < 4 -> dv t [i; j] <> rz -> qop G (c i) (qinv G (c j)) = r).
    Proof. intros HS. pose proof (@definite_iff x T HT Fn c Fc t r) as D. rewrite H4 in D. apply D. exact HS. Qed.
    Lemma FX t r i j : dsh t = [4; 4] -> (forall i j, i < 4 -> j < 4 -> dv t [i; j] <> rz -> qop G (c i) (qinv G (c j)) = r) -> i < 4 -> j < 4 -> dv t [i; j] <> rz -> units t -> exists C, b_operator big signif T t = Ok C /\ op_is x t r C.
    Proof. intros HS H Hi Hj NZ U. unfold units in U. apply (@op_good x T HT Fn c Fc t r i j); rewrite ?H4; auto. apply FD; auto. Qed.
    Theorem fermions_block : qop G p0 p3 = qop G p1 p2 ->
      exists Up Dn Fb Id, b_fermions big signif T = Ok (Up, Dn, Fb, Id) /\ op_is x c_up (qop G p0 (qinv G p1)) Up /\ op_is x c_dn (qop G p0 (qinv G p2)) Dn /\ op_is x F (qe G) Fb /\ op_is x id (qe G) Id.
    Proof.
      intros EQ. pose proof HP as HP'. injection HP' as E1 E2 E3 E4. unfold b_fermions. rewrite HP.
      destruct (@FX c_up (qop G p0 (qinv G p1)) 0 1) as (Up & -> & HUp); [rewrite <- E1; reflexivity| |lia|lia|rewrite <- E1; exact one_nz|rewrite <- E1; unit4|].
      { rewrite <- E1. intros [|[|[|[|i]]]] [|[|[|[|j]]]] Hi Hj NZ; try lia; try (exfalso; apply NZ; reflexivity); [reflexivity|]. symmetry. apply ratio_eq. exact EQ. }
      destruct (@FX c_dn (qop G p0 (qinv G p2)) 0 2) as (Dn & -> & HDn); [rewrite <- E2; reflexivity| |lia|lia|rewrite <- E2; exact one_nz|rewrite <- E2; unit4|].
      { rewrite <- E2. intros [|[|[|[|i]]]] [|[|[|[|j]]]] Hi Hj NZ; try lia; try (exfalso; apply NZ; reflexivity); [reflexivity|]. symmetry. apply ratio_eq. rewrite (qop_comm G p2). exact EQ. }
      destruct (@FX F (qe G) 0 0) as (Fb & -> & HF); [rewrite <- E3; reflexivity| |lia|lia|rewrite <- E3; exact one_nz|rewrite <- E3; unit4|].
      { rewrite <- E3. intros [|[|[|[|i]]]] [|[|[|[|j]]]] Hi Hj NZ; try lia; try (exfalso; apply NZ; reflexivity); apply qop_inv_r. }
      destruct (@FX id (qe G) 0 0) as (Id & -> & HId); [rewrite <- E4; reflexivity| |lia|lia|rewrite <- E4; exact one_nz|rewrite <- E4; unit4|].
      { rewrite <- E4. intros [|[|[|[|i]]]] [|[|[|[|j]]]] Hi Hj NZ; try lia; try (exfalso; apply NZ; reflexivity); apply qop_inv_r. }
      cbn [rbind]. exists Up, Dn, Fb, Id. auto.
    Qed.
    Theorem fermions_rejected : qop G p0 p3 <> qop G p1 p2 -> b_fermions big signif T = Throw LogicError.
    Proof.
      intros NE. pose proof HP as HP'. injection HP' as E1 E2 E3 E4. unfold b_fermions. rewrite HP.
      rewrite (@op_bad x T HT Fn c_up); [reflexivity|rewrite H4, <- E1; reflexivity|rewrite <- E1; unit4|]. intros r D. pose proof (proj1 (@FD c_up r ltac:(rewrite <- E1; reflexivity)) D) as D'.  clear D. rename D' into D. apply NE. apply ratio_eq.
      transitivity r; [|symmetry].
      - apply (D 0 1); [lia|lia|]. rewrite <- E1. exact one_nz.
      - apply (D 2 3); [lia|lia|]. rewrite <- E1. exact one_nz.
    Qed.
  End Fermi.
End P.
