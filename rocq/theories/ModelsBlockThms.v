(** The Heisenberg and Hubbard chains with conserved quantities. *)
From Verif Require Import Base Quantity QuantityProofs FlatMap SpecFlatMap FlatMapProofs Ring Index SpecIndex Dense IndexProofs BTensor SpecBTensor LegsProofs
  BTensorProofs BTensorThms BTensorThms2 TensordotThms Bcast View SpecView SpecChain ChainInst SpecEdges EdgesBlock SpecSector
  Models SpecModels ModelsProofs ModelsThms ModelsEx ModelsBlock SpecModelsBlock ModelsBlockProofs.
From Coq Require Import Lia.
Set Implicit Arguments.

Lemma located_lt l x b o : located l x b o -> x < sum_list l.
Proof.
  intros (H1 & H2 & ->). revert b H1 H2. induction l as [|s l IH]; intros [|b] H1 H2; cbn [length nth firstn] in *; try lia; rewrite ?sum_list_cons.
  - change (sum_list []) with 0. lia.
  - specialize (IH b). lia.
Qed.

Section T.
  Context {G : abgroup} {R : ring}.
  Add Ring Rring5 : (ring_th R).
  Notation bt := (btensor G R).
  Variable signif : dense R -> bool.
  Variable near : R -> R -> bool.
  Hypothesis near_refl : forall x, near x x = true.
  Hypothesis near_1 : near rz ro = false.

  Lemma phys_legs1 d (P : bt) : phys_dim d P -> legs P = [fst (nth 0 (blegs P) ([], []))] /\ qlegs P = [snd (nth 0 (blegs P) ([], []))] /\ sum_list (fst (nth 0 (blegs P) ([], []))) = d /\ b_rank P = 1.
  Proof.
    intros (M & H1 & H2). pose proof (qlegs_length M) as H3. pose proof (legs_length M) as H4. rewrite H1 in H4. rewrite <- H4 in H3. unfold blegs.
    destruct (legs P) as [|l [|]]; try discriminate. destruct (qlegs P) as [|q [|]]; try discriminate. cbn in *. auto.
  Qed.
  Lemma phys_qtt_ok d (P : bt) x c : phys_dim d P -> phys_carries P x c -> phys_qtt P x = Ok c.
  Proof.
    intros HP (b & o & HL & <-). destruct (phys_legs1 HP) as (E1 & E2 & E3 & E4). pose proof HP as (M & _). pose proof M as (M1 & M2 & M3).
    assert (EL : prange (b_sbd P) (b_ss P) 0 = fst (nth 0 (blegs P) ([], []))) by (rewrite prange_unpack by lia; fold (legs P); rewrite E1; reflexivity).
    unfold phys_qtt. destruct (@element_qtt G (qe G) (b_sbd P) (b_ss P) (b_cv P) 0 x) as [H _]; [auto|congruence|lia|].
    destruct H as (b' & o' & HL' & ->); [rewrite EL; exact (located_lt HL)|].
    rewrite EL in HL'. pose proof (find_section_unique HL) as F1. pose proof (find_section_unique HL') as F2. rewrite F1 in F2. injection F2 as <- <-. f_equal.
    rewrite psection_unpack; [fold (qlegs P); rewrite E2; reflexivity|lia|].
    rewrite <- (legs_lens M), E1. cbn. apply HL.
  Qed.

  Lemma local_shape_ok d (P : bt) (lq : list G) r : phys_dim d P ->
    exists S, local_shape (@of_struct G R [map (pair 1) lq] r) P = Ok S /\ valid S /\ b_blocks S = [] /\ b_rule S = qe G /\
      blegs S = [(repeat 1 (length lq), lq); nth 0 (blegs P) ([], []); bdual G (repeat 1 (length lq), lq); bdual G (nth 0 (blegs P) ([], []))].
  Proof.
    intros HP. destruct (phys_legs1 HP) as (E1 & E2 & _). set (k := nth 0 (blegs P) ([], [])) in *.
    set (left := @of_struct G R [map (pair 1) lq] r).
    assert (F1 : map fst (map (pair 1) lq) = repeat 1 (length lq)) by (clear; induction lq; cbn; congruence).
    assert (F2 : map snd (map (pair 1) lq) = lq) by (clear; induction lq; cbn; congruence).
    assert (FL : shape_is left [repeat 1 (length lq)] [lq] r).
    { destruct (@from_legs G R r 1 [repeat 1 (length lq)] [lq] eq_refl) as (HM & HL & HQ & HV); [cbn; rewrite repeat_length; reflexivity|].
      assert (E : @mkB G R r 1 (lens [repeat 1 (length lq)]) (concat [repeat 1 (length lq)]) (concat [lq]) [] = left).
      { unfold left, of_struct. cbn [map concat length lens]. rewrite !app_nil_r, F1, F2, repeat_length, map_length. reflexivity. }
      rewrite E in *. split; [exact HV|]. split; [reflexivity|]. split; [exact HL|]. split; [exact HQ|reflexivity]. }
    assert (ML : meta_ok left) by (eapply shape_is_meta; exact FL). pose proof FL as (_ & _ & L1 & L2 & L3).
    pose proof HP as (MP & _).
    assert (HC : forall T : bt, meta_ok T -> meta_ok (conj T) /\ legs (conj T) = legs T /\ qlegs (conj T) = map (map (qinv G)) (qlegs T) /\ b_rule (conj T) = qinv G (b_rule T)).
    { intros T (M1 & M2 & M3). split; [split; [exact M1|split; [exact M2|cbn; rewrite map_length; exact M3]]|]. split; [reflexivity|]. split; [|reflexivity].
      unfold qlegs. cbn [conj b_sbd b_cv inverse_cvals]. apply unpack_map. }
    destruct (HC _ ML) as (MC & LC & QC & RC). destruct (HC _ MP) as (MC' & LC' & QC' & RC').
    destruct (@shape_list_ok G R [left; P; conj left; conj P]) as (S & ES & HV & HB & SL & SQ & SR); [discriminate| |].
    { repeat (apply Forall_cons; [assumption|]). apply Forall_nil. }
    exists S. split; [exact ES|]. split; [exact HV|]. split; [exact HB|]. split.
    - rewrite SR. cbn [map]. rewrite RC, RC'. apply quad_iff. reflexivity.
    - unfold blegs. rewrite SL, SQ. cbn [map concat]. rewrite LC, LC', QC, QC', L1, L2, E1, E2. cbn [map app combine]. destruct k; reflexivity.
  Qed.
  Lemma chain_of_two r m (W : dense R) : chain_of r (S (S m)) W = Ok (trim_left r W :: repeat W m ++ [trim_right W]).
  Proof.
    cbn [chain_of]. cbn [repeat]. rewrite upd_0. cbn [rnth]. change (W :: repeat W m) with (repeat W (S m)).
    assert (RN : rnth (trim_left r W :: repeat W (S m)) (S m) = Ok W) by (unfold rnth; cbn [nth_error]; clear; induction m; [reflexivity|exact IHm]).
    rewrite RN. cbn [rbind]. rewrite upd_S, upd_last_repeat. reflexivity.
  Qed.

  (** * Heisenberg *)
  Section Heis.
    Variables (quarter : R -> R) (J : R) (n : nat) (P : bt) (p0 p1 : G).
    Hypothesis Hn : 2 <= n.
    Hypothesis HP : phys_dim 2 P.
    Hypothesis H0 : phys_carries P 0 p0.
    Hypothesis H1 : phys_carries P 1 p1.
    Let J' := quarter (ropp J).
    Let lq := [qe G; p0; p1; qe G; qe G].
    Let cp p := match p with 0 => p0 | _ => p1 end.

    Lemma heis_setup : exists S W m, n = Datatypes.S (Datatypes.S m) /\ auto_tensor 2 3 (fun _ _ => rz) (hA J') hB W /\
      Heisenberg quarter J n = Ok (chain lq W m) /\ b_Heisenberg signif near quarter J n P = to_bMPO signif near (chain lq W m) S /\
      valid S /\ b_blocks S = [] /\ b_rule S = qe G /\
      blegs S = [(repeat 1 (length lq), lq); nth 0 (blegs P) ([], []); bdual G (repeat 1 (length lq), lq); bdual G (nth 0 (blegs P) ([], []))].
    Proof.
      destruct (@local_shape_ok 2 P lq p0 HP) as (S & ES & VS & BS & RS & LS). destruct (Heisenberg_local_auto J') as (W & EW & AW).
      destruct n as [|[|m]]; try lia. exists S, W, m. split; [reflexivity|]. split; [exact AW|].
      assert (EH : Heisenberg quarter J (Datatypes.S (Datatypes.S m)) = Ok (chain lq W m)).
      { unfold Heisenberg, Heisenberg_impl. fold J'. rewrite EW. cbn [rbind]. rewrite chain_of_two. reflexivity. }
      split; [exact EH|]. split.
      - unfold b_Heisenberg. rewrite (phys_qtt_ok HP H0), (phys_qtt_ok HP H1). cbn [rbind].
        change [[(1, qe G); (1, p0); (1, p1); (1, qe G); (1, qe G)]] with [map (pair 1) lq]. rewrite ES. cbn [rbind]. rewrite EH. reflexivity.
      - auto.
    Qed.
    Lemma cp_carries p : p < sum_list (fst (nth 0 (blegs P) ([], []))) -> carries (nth 0 (blegs P) ([], [])) p (cp p).
    Proof. destruct (phys_legs1 HP) as (_ & _ & -> & _). intros Hp. destruct p as [|[|p]]; [exact H0|exact H1|lia]. Qed.
    Lemma d_pos : 0 < sum_list (fst (nth 0 (blegs P) ([], []))).
    Proof. destruct (phys_legs1 HP) as (_ & _ & -> & _). lia. Qed.

    Theorem heis_ok : visible signif ro -> visible signif (ropp ro) ->
      (forall x, In x [rmul (radd ro ro) J'; J'; ropp J'] -> x = rz \/ visible signif x) ->
      p1 = qop G p0 p0 -> p0 = qop G p1 p1 ->
      exists Ts Ws, b_Heisenberg signif near quarter J n P = Ok Ts /\ Heisenberg quarter J n = Ok Ws /\ block_mpo P Ts Ws ([1], [qe G]) ([1], [qe G]) /\ inner_bonds Ts (bdual G (repeat 1 5, [qe G; p0; p1; qe G; qe G])).
    Proof.
      intros V1 V2 VJ Q1 Q2. destruct heis_setup as (S & W & m & En & AW & EH & EB & VS & BS & RS & LS). pose proof (phys_legs1 HP) as (_ & _ & Ed & _).
      destruct (@to_bMPO_ok G R signif near near_refl (nth 0 (blegs P) ([], [])) lq S cp W) with (PT := P) (m := m) as (Ts & ET & HT & HI); auto; try (cbn; lia).
      - exact cp_carries.
      - rewrite Ed. apply AW.
      - rewrite Ed. change (length lq) with 5. destruct AW as [_ AW]. intros a p c q Ha Hp Hc Hq. rewrite AW by lia. clear AW.
        destruct p as [|[|p]]; [| |lia]; (destruct q as [|[|q]]; [| |lia]); unfold auto_entry; destruct c as [|[|[|[|[|c]]]]]; try lia; destruct a as [|[|[|[|[|a]]]]]; try lia;
          cbn [Nat.eqb Nat.leb]; try (left; reflexivity);
          match goal with |- ?x = _ \/ _ =>
            first [ left; cbv -[radd rmul ropp rz ro rconj rT]; ring
                  | let E := fresh in
                    first [ assert (E : x = ro) by (cbv -[radd rmul ropp rz ro rconj rT]; ring); rewrite E; right; split; [exact V1|]
                          | assert (E : x = ropp ro) by (cbv -[radd rmul ropp rz ro rconj rT]; ring); rewrite E; right; split; [exact V2|]
                          | assert (E : x = rmul (radd ro ro) J') by (cbv -[radd rmul ropp rz ro rconj rT]; ring); rewrite E; destruct (VJ (rmul (radd ro ro) J')) as [?|?]; [cbn; tauto|left; assumption|right; split; [assumption|]]
                          | assert (E : x = J') by (cbv -[radd rmul ropp rz ro rconj rT]; ring); rewrite E; destruct (VJ J') as [?|?]; [cbn; tauto|left; assumption|right; split; [assumption|]]
                          | assert (E : x = ropp J') by (cbv -[radd rmul ropp rz ro rconj rT]; ring); rewrite E; destruct (VJ (ropp J')) as [?|?]; [cbn; tauto|left; assumption|right; split; [assumption|]]];
                    cbn [nth lq cp]; unfold lq; cbn [nth]; rewrite ?qop_e_l; first [reflexivity|assumption|symmetry; assumption] ]
          end.
      - exists Ts, (chain lq W m). rewrite EB. split; [exact ET|]. split; [exact EH|]. unfold x0, y0 in HT. cbn [length lq nth Nat.sub bdual fst snd map] in HT. unfold lq in HT. cbn [nth Nat.sub length] in HT. assert (EX : bdual G ([1], [qe G]) = ([1], [qe G])) by (unfold bdual; cbn [fst snd map]; rewrite inv_e; reflexivity). rewrite EX, inv_e in HT. split; [exact HT|exact HI].
    Qed.

    Theorem heis_bad : ~ (p1 = qop G p0 p0 /\ p0 = qop G p1 p1) -> b_Heisenberg signif near quarter J n P = Throw InvalidArgument.
    Proof.
      intros HQ. destruct heis_setup as (S & W & m & En & AW & EH & EB & VS & BS & RS & LS). pose proof (phys_legs1 HP) as (_ & _ & Ed & _). rewrite EB.
      assert (N1 : near rz (dv W [1; 0; 0; 1]) = false) by (replace (dv W [1; 0; 0; 1]) with (@ro R); [exact near_1|symmetry; destruct AW as [_ ->]; [|lia..]; cbv -[radd rmul ropp rz ro rconj rT]; rewrite ?rconj_1; ring]).
      assert (N2 : near rz (dv W [2; 1; 0; 0]) = false) by (replace (dv W [2; 1; 0; 0]) with (@ro R); [exact near_1|symmetry; destruct AW as [_ ->]; [|lia..]; cbv -[radd rmul ropp rz ro rconj rT]; rewrite ?rconj_1; ring]).
      destruct (qeqb G (qop G p0 p0) p1) eqn:E1.
      - apply (@to_bMPO_bad G R signif near (nth 0 (blegs P) ([], [])) lq S cp W) with (a := 2) (p := 1) (q := 0); auto; try (cbn; lia); try exact d_pos; try exact cp_carries; try (rewrite Ed; apply AW).
        unfold lq. cbn [nth cp]. rewrite qop_e_l. apply qeqb_spec in E1. intros E2. apply HQ. auto.
      - apply (@to_bMPO_bad G R signif near (nth 0 (blegs P) ([], [])) lq S cp W) with (a := 1) (p := 0) (q := 1); auto; try (cbn; lia); try exact d_pos; try exact cp_carries; try (rewrite Ed; apply AW).
        unfold lq. cbn [nth cp]. rewrite qop_e_l. intros E2. apply (qeqb_spec G) in E2. congruence.
    Qed.
    (** A coupling too weak for the cutoff. *)
    Theorem heis_faint : near rz (rmul (radd ro ro) J') = false -> (forall D, only D (rmul (radd ro ro) J') -> signif D = false) ->
      b_Heisenberg signif near quarter J n P = Throw InvalidArgument.
    Proof.
      intros HN HD. destruct heis_setup as (S & W & m & En & AW & EH & EB & VS & BS & RS & LS). pose proof (phys_legs1 HP) as (_ & _ & Ed & _). rewrite EB.
      assert (X : forall p q, p < 2 -> q < 2 -> dv W [4; p; 1; q] = if (p =? 1) && (q =? 0) then rmul (radd ro ro) J' else rz).
      { destruct AW as [_ AW]. intros p q Hp Hq. rewrite AW by lia. destruct p as [|[|p]]; [| |lia]; (destruct q as [|[|q]]; [| |lia]); cbv -[radd rmul ropp rz ro rconj rT]; ring. }
      apply (@to_bMPO_faint G R signif near (nth 0 (blegs P) ([], [])) lq S cp W) with (p := 1) (c := 1) (q := 0); auto; try (cbn; lia); try exact cp_carries; try (rewrite Ed; apply AW).
      - change (length lq - 1) with 4. rewrite (X 1 0) by lia. exact HN.
      - change (length lq - 1) with 4. rewrite Ed. intros D (f & F1 & F2). apply HD. split.
        + intros i Hi. destruct (F2 i Hi) as (Hp & Hq & ->). rewrite X by auto. destruct (_ && _); auto.
        + intros i j Hi Hj Ni Nj. apply F1; auto. destruct (F2 i Hi) as (Hpi & Hqi & Ei). destruct (F2 j Hj) as (Hpj & Hqj & Ej). rewrite Ei, X in Ni by auto. rewrite Ej, X in Nj by auto.
          destruct ((fst (f i) =? 1) && (snd (f i) =? 0)) eqn:B1; [|congruence]. destruct ((fst (f j) =? 1) && (snd (f j) =? 0)) eqn:B2; [|congruence].
          rewrite andb_true_iff, !Nat.eqb_eq in B1, B2. destruct (f i), (f j); cbn in *. destruct B1, B2. congruence.
    Qed.
  End Heis.

  (** * Hubbard *)
  Section Hub.
    Variables (U mu : R) (n : nat) (P : bt) (p0 p1 p2 p3 : G).
    Hypothesis Hn : 2 <= n.
    Hypothesis HP : phys_dim 4 P.
    Hypothesis H0 : phys_carries P 0 p0.
    Hypothesis H1 : phys_carries P 1 p1.
    Hypothesis H2 : phys_carries P 2 p2.
    Hypothesis H3 : phys_carries P 3 p3.
    Let lq := [p0; p1; p2; qinv G p1; qinv G p2; p0].
    Let cp p := match p with 0 => p0 | 1 => p1 | 2 => p2 | _ => p3 end.

    Lemma hub_setup : exists S W m, n = Datatypes.S (Datatypes.S m) /\ auto_tensor 4 4 (uLoc U mu) uA uB W /\
      Hubbard U mu n = Ok (chain lq W m) /\ b_Hubbard signif near U mu n P = to_bMPO signif near (chain lq W m) S /\
      valid S /\ b_blocks S = [] /\ b_rule S = qe G /\
      blegs S = [(repeat 1 (length lq), lq); nth 0 (blegs P) ([], []); bdual G (repeat 1 (length lq), lq); bdual G (nth 0 (blegs P) ([], []))].
    Proof.
      destruct (@local_shape_ok 4 P lq p0 HP) as (S & ES & VS & BS & RS & LS). destruct (Hubbard_local_auto U mu) as (W & EW & AW).
      destruct n as [|[|m]]; try lia. exists S, W, m. split; [reflexivity|]. split; [exact AW|].
      assert (EH : Hubbard U mu (Datatypes.S (Datatypes.S m)) = Ok (chain lq W m)).
      { unfold Hubbard. rewrite EW. cbn [rbind]. rewrite chain_of_two. reflexivity. }
      split; [exact EH|]. split.
      - unfold b_Hubbard. rewrite (phys_qtt_ok HP H0), (phys_qtt_ok HP H1), (phys_qtt_ok HP H2). cbn [rbind].
        change [[(1, p0); (1, p1); (1, p2); (1, qinv G p1); (1, qinv G p2); (1, p0)]] with [map (pair 1) lq]. rewrite ES. cbn [rbind]. rewrite EH. reflexivity.
      - auto.
    Qed.
    Lemma cp_carries4 p : p < sum_list (fst (nth 0 (blegs P) ([], []))) -> carries (nth 0 (blegs P) ([], [])) p (cp p).
    Proof. destruct (phys_legs1 HP) as (_ & _ & -> & _). intros Hp. destruct p as [|[|[|[|p]]]]; auto. lia. Qed.

    Theorem hub_ok : visible signif ro -> visible signif (ropp ro) ->
      (forall x, In x [ropp mu; rsub U (radd mu mu)] -> x = rz \/ visible signif x) ->
      qop G p0 p0 = qe G -> qop G p0 p3 = qop G p1 p2 ->
      exists Ts Ws, b_Hubbard signif near U mu n P = Ok Ts /\ Hubbard U mu n = Ok Ws /\ block_mpo P Ts Ws ([1], [p0]) ([1], [p0]) /\ inner_bonds Ts (bdual G (repeat 1 6, [p0; p1; p2; qinv G p1; qinv G p2; p0])).
    Proof.
      intros V1 V2 VJ Q1 Q2. destruct hub_setup as (S & W & m & En & AW & EH & EB & VS & BS & RS & LS). pose proof (phys_legs1 HP) as (_ & _ & Ed & _).
      assert (I0 : qinv G p0 = p0) by (rewrite <- (qop_e_r G (qinv G p0)), <- Q1, qop_assoc, qop_inv_l, qop_e_l; reflexivity).
      assert (Q3 : p3 = qop G p0 (qop G p1 p2)) by (rewrite <- Q2, qop_assoc, Q1, qop_e_l; reflexivity).
      assert (A1 : qop G (qinv G p1) p1 = qop G p0 p0) by (rewrite Q1; apply qop_inv_l).
      assert (A2 : qop G (qinv G p2) p2 = qop G p0 p0) by (rewrite Q1; apply qop_inv_l).
      assert (A3 : qop G (qinv G p1) p3 = qop G p0 p2) by (rewrite Q3, (qop_comm G p0), !qop_assoc, qop_inv_l, qop_e_l; apply qop_comm).
      assert (A4 : qop G (qinv G p2) p3 = qop G p0 p1) by (rewrite Q3, (qop_comm G p0), (qop_comm G p1), !qop_assoc, qop_inv_l, qop_e_l; apply qop_comm).
      assert (A5 : qop G p0 p3 = qop G p2 p1) by (rewrite Q2; apply qop_comm).
      destruct (@to_bMPO_ok G R signif near near_refl (nth 0 (blegs P) ([], [])) lq S cp W) with (PT := P) (m := m) as (Ts & ET & HT & HI); auto; try (cbn; lia).
      - exact cp_carries4.
      - rewrite Ed. apply AW.
      - rewrite Ed. change (length lq) with 6. destruct AW as [_ AW]. intros a p c q Ha Hp Hc Hq. rewrite AW by lia. clear AW.
        unfold auto_entry; destruct c as [|[|[|[|[|[|c]]]]]]; try lia; destruct a as [|[|[|[|[|[|a]]]]]]; try lia;
        cbn [Nat.eqb Nat.leb]; try (left; reflexivity);
        (destruct p as [|[|[|[|p]]]]; [| | | |lia]); (destruct q as [|[|[|[|q]]]]; [| | | |lia]);
          try (left; reflexivity);
          match goal with |- ?x = _ \/ _ =>
            first [ left; cbv -[radd rmul ropp rz ro rconj rT]; rewrite ?rconj_opp, ?rconj_0, ?rconj_1; ring
                  | let E := fresh in
                    first [ assert (E : x = ro) by (cbv -[radd rmul ropp rz ro rconj rT]; rewrite ?rconj_opp, ?rconj_0, ?rconj_1; ring); rewrite E; right; split; [exact V1|]
                          | assert (E : x = ropp ro) by (cbv -[radd rmul ropp rz ro rconj rT]; rewrite ?rconj_opp, ?rconj_0, ?rconj_1; ring); rewrite E; right; split; [exact V2|]
                          | assert (E : x = ropp mu) by (cbv -[radd rmul ropp rz ro rconj rT]; rewrite ?rconj_opp, ?rconj_0, ?rconj_1; ring); rewrite E; destruct (VJ (ropp mu)) as [?|?]; [cbn; tauto|left; assumption|right; split; [assumption|]]
                          | assert (E : x = rsub U (radd mu mu)) by (cbv -[radd rmul ropp rz ro rconj rT]; rewrite ?rconj_opp, ?rconj_0, ?rconj_1; ring); rewrite E; destruct (VJ (rsub U (radd mu mu))) as [?|?]; [cbn; tauto|left; assumption|right; split; [assumption|]]];
                    unfold lq; cbn [nth cp]; first [reflexivity|assumption|symmetry; assumption|apply qop_comm|rewrite qop_comm; first [assumption|symmetry; assumption]] ]
          end.
      - exists Ts, (chain lq W m). rewrite EB. split; [exact ET|]. split; [exact EH|]. unfold x0, y0 in HT. cbn [length lq nth Nat.sub bdual fst snd map] in HT. unfold lq in HT. cbn [nth Nat.sub length] in HT.
        assert (EX : bdual G ([1], [p0]) = ([1], [p0])) by (unfold bdual; cbn [fst snd map]; rewrite I0; reflexivity). rewrite EX, I0 in HT. split; [exact HT|exact HI].
    Qed.

    Theorem hub_bad : ~ (qop G p0 p0 = qe G /\ qop G p0 p3 = qop G p1 p2) -> b_Hubbard signif near U mu n P = Throw InvalidArgument.
    Proof.
      intros HQ. destruct hub_setup as (S & W & m & En & AW & EH & EB & VS & BS & RS & LS). pose proof (phys_legs1 HP) as (_ & _ & Ed & _). rewrite EB.
      assert (N1 : near rz (dv W [3; 1; 0; 0]) = false) by (replace (dv W [3; 1; 0; 0]) with (@ro R); [exact near_1|symmetry; destruct AW as [_ ->]; [|lia..]; cbv -[radd rmul ropp rz ro rconj rT]; rewrite ?rconj_1; ring]).
      assert (N2 : near rz (dv W [1; 2; 0; 3]) = false) by (replace (dv W [1; 2; 0; 3]) with (@ro R); [exact near_1|symmetry; destruct AW as [_ ->]; [|lia..]; cbv -[radd rmul ropp rz ro rconj rT]; rewrite ?rconj_1; ring]).
      destruct (qeqb G (qop G p0 p0) (qe G)) eqn:E1.
      - apply (@to_bMPO_bad G R signif near (nth 0 (blegs P) ([], [])) lq S cp W) with (a := 1) (p := 2) (q := 3); auto; try (cbn; lia); try exact cp_carries4; try (rewrite Ed; apply AW).
        unfold lq. cbn [nth cp]. apply qeqb_spec in E1. intros E2. apply HQ. auto.
      - apply (@to_bMPO_bad G R signif near (nth 0 (blegs P) ([], [])) lq S cp W) with (a := 3) (p := 1) (q := 0); auto; try (cbn; lia); try exact cp_carries4; try (rewrite Ed; apply AW).
        unfold lq. cbn [nth cp]. rewrite qop_inv_l. intros E2. symmetry in E2. apply (qeqb_spec G) in E2. congruence.
    Qed.
  End Hub.
End T.
