From Verif Require Import Base Quantity QuantityProofs SpecFlatMap Ring Index SpecIndex IndexProofs
  Dense BTensor SpecBTensor LegsProofs BTensorProofs BTensorThms SelRule.
Set Implicit Arguments.

Section P.
  Variable G : abgroup.
  Variable R : ring.
  Variable big : R -> bool.
  Implicit Types T : btensor G R.

  Lemma scan_quantity_spec sizes (qs : list G) e : length qs = length sizes -> e < sum_list sizes ->
    exists b o, located sizes e b o /\ scan_quantity G sizes qs e = Ok (nth b qs (qe G)).
  Proof.
    revert qs e; induction sizes as [|s sizes IH]; intros [|q qs] e Hl He; try discriminate; [cbn in He; lia|].
    rewrite sum_list_cons in He. cbn [scan_quantity tl]. destruct (s <=? e) eqn:E.
    - apply Nat.leb_le in E. destruct (IH qs (e - s)) as [b [o [H1 H2]]]; [cbn in Hl; lia|lia|].
      exists (S b), o. split; [|exact H2]. destruct H1 as [H1 [H3 H4]]. split; [cbn; lia|].
      split; cbn [nth firstn]; auto. rewrite sum_list_cons. lia.
    - apply Nat.leb_gt in E. exists 0, e. split; [|reflexivity]. split; [cbn; lia|]. split; cbn; auto.
  Qed.
  Lemma matvec_unit t i j : i < nth 1 (dsh t) 0 -> matvec t (@unit_vec R i) j = dv t [j; i].
  Proof.
    intros Hi. unfold matvec, unit_vec. rewrite sumf_single with (x := i).
    - rewrite Nat.eqb_refl. apply rmul_1_r.
    - apply seq_NoDup.
    - apply in_seq. lia.
    - intros c _ Hc. replace (c =? i) with false by (symmetry; apply Nat.eqb_neq; auto). apply rmul_0_r.
  Qed.

  (** Pure version over the list of significant positions. *)
  Definition hit (st : bool * G) (p : G) : result (bool * G) :=
    if fst st then Ok (false, p) else if qeqb G (snd st) p then Ok (false, snd st) else Throw LogicError.
  Lemma hits_spec l : 
    (exists q, rfold hit l (true, qe G) = Ok (match l with [] => true | _ => false end, q) /\ (forall p, In p l -> p = q) /\ (l = [] -> q = qe G))
    \/ (rfold hit l (true, qe G) = Throw LogicError /\ exists p q, In p l /\ In q l /\ p <> q).
  Proof.
    assert (HF : forall l q, rfold hit l (false, q) = Ok (false, q) /\ (forall p, In p l -> p = q)
       \/ rfold hit l (false, q) = Throw LogicError /\ exists p, In p l /\ p <> q).
    { clear l. induction l as [|p l IH]; intros q; cbn [rfold hit fst snd]; [left; split; auto; intros _ []|].
      unfold hit at 1. cbn [fst snd]. destruct (qeqb G q p) eqn:E; cbn [rbind].
      - apply qeqb_spec in E. subst p. destruct (IH q) as [[H1 H2]|[H1 [p [H2 H3]]]]; [left|right]; split; auto.
        + intros p [<-|H]; auto.
        + exists p. split; auto. right; auto.
      - right. split; auto. exists p. split; [left; auto|]. intros ->. rewrite qeqb_refl in E. discriminate. }
    destruct l as [|p l]; [left; exists (qe G); repeat split; intros _ []|].
    cbn [rfold]. unfold hit at 1 3. cbn [fst rbind]. destruct (HF l p) as [[H1 H2]|[H1 [q [H2 H3]]]].
    - left. exists p. split; auto. split; [intros x [<-|H]; auto|discriminate].
    - right. split; auto. exists q, p. split; [right; auto|]. split; [left; auto|auto].
  Qed.

  (** Quantity of the block holding element (j, i). *)
  Definition qat T (j i : nat) : G :=
    qop G (nth (fst (find_section (nth 0 (legs T) []) j)) (nth 0 (qlegs T) []) (qe G))
          (nth (fst (find_section (nth 1 (legs T) []) i)) (nth 1 (qlegs T) []) (qe G)).

  Lemma quantitiesi_spec T d e : meta_ok T -> d < b_rank T -> e < sum_list (nth d (legs T) []) ->
    quantitiesi T e d = Ok (nth (fst (find_section (nth d (legs T) []) e)) (nth d (qlegs T) []) (qe G)).
  Proof.
    intros [H1 [H2 H3]] Hd He. unfold quantitiesi, legs, qlegs in *. 
    rewrite !prange_unpack by lia.
    destruct (@scan_quantity_spec (nth d (unpack (b_sbd T) (b_ss T)) []) (nth d (unpack (b_sbd T) (b_cv T)) []) e) as [b [o [L E]]]; auto.
    { rewrite <- !prange_unpack by lia. rewrite !prange_length; lia. }
    rewrite E. rewrite (find_section_unique L). reflexivity.
  Qed.

  Definition inner T t i : bool * G -> nat -> result (bool * G) :=
        fun '(first, q) j =>
          if big (matvec t (unit_vec R i) j) then
            do qj <- quantitiesi T j 0 ;
            do qi <- quantitiesi T i 1 ;
            if first : bool then Ok (false, qop G qj qi)
            else if qeqb G q (qop G qj qi) then Ok (false, q)
            else Throw LogicError
          else Ok (first, q).
  Lemma find_rule_eq T t : meta_ok T -> b_rank T = 2 -> dsh t = map sum_list (legs T) ->
    find_selection_rule big t T =
    do s <- rfold hit (flat_map (fun i => map (fun j => qat T j i) (filter (fun j => big (dv t [j; i])) (seq 0 (nth 0 (dsh t) 0))))
                         (seq 0 (nth 1 (dsh t) 0))) (true, qe G) ; Ok (snd s).
  Proof.
    intros HM HR Hsh. unfold find_selection_rule. pose proof HM as [H1 [H2 H3]].
    assert (HL : length (legs T) = 2) by (rewrite legs_length; auto).
    assert (S0 : nth 0 (dsh t) 0 = sum_list (nth 0 (legs T) [])) by (rewrite Hsh; exact (map_nth sum_list (legs T) [] _)).
    assert (S1 : nth 1 (dsh t) 0 = sum_list (nth 1 (legs T) [])) by (rewrite Hsh; exact (map_nth sum_list (legs T) [] _)).
    replace (length (dsh t) =? 2) with true by (rewrite Hsh, map_length, HL; reflexivity). rewrite HR, Nat.eqb_refl. cbn [negb].
    assert (HI : forall i l st, i < nth 1 (dsh t) 0 -> (forall j, In j l -> j < nth 0 (dsh t) 0) ->
      rfold (inner T t i) l st
      = rfold hit (map (fun j => qat T j i) (filter (fun j => big (dv t [j; i])) l)) st).
    { intros i l. induction l as [|j l IH]; intros [f q] Hi Hl; [reflexivity|]. cbn [rfold filter].
      unfold inner at 1. rewrite matvec_unit by auto. destruct (big (dv t [j; i])) eqn:E.
      - rewrite !quantitiesi_spec; auto; try lia; [|rewrite <- S0; apply Hl; left; auto].
        cbn [rbind map rfold]. fold (qat T j i). unfold hit at 1. cbn [fst snd].
        destruct f; cbn [rbind]; [apply IH; auto; intros; apply Hl; right; auto|].
        destruct (qeqb G q (qat T j i)); cbn [rbind]; auto. apply IH; auto; intros; apply Hl; right; auto.
      - cbn [rbind]. apply IH; auto; intros; apply Hl; right; auto. }
    f_equal. change (rfold (fun st i => rfold (inner T t i) (seq 0 (nth 0 (dsh t) 0)) st) (seq 0 (nth 1 (dsh t) 0)) (true, qe G) = 
      rfold hit (flat_map (fun i => map (fun j => qat T j i) (filter (fun j => big (dv t [j; i])) (seq 0 (nth 0 (dsh t) 0))))
                         (seq 0 (nth 1 (dsh t) 0))) (true, qe G)).
    assert (HO : forall l st, (forall i, In i l -> i < nth 1 (dsh t) 0) ->
      rfold (fun st i => rfold (inner T t i) (seq 0 (nth 0 (dsh t) 0)) st) l st
      = rfold hit (flat_map (fun i => map (fun j => qat T j i) (filter (fun j => big (dv t [j; i])) (seq 0 (nth 0 (dsh t) 0)))) l) st).
    { induction l as [|i l IH]; intros st Hl; [reflexivity|]. cbn [rfold flat_map]. rewrite rfold_app.
      rewrite HI; [|apply Hl; left; auto|intros j Hj; apply in_seq in Hj; lia].
      destruct (rfold hit _ st); cbn [rbind]; auto. apply IH. intros; apply Hl; right; auto. }
    rewrite HO; auto. intros i Hi. apply in_seq in Hi. lia.
  Qed.

  Lemma find_rule_spec T t : meta_ok T -> b_rank T = 2 -> dsh t = map sum_list (legs T) ->
    (exists q, find_selection_rule big t T = Ok q /\
       (forall b o, in_range (b_sbd T) b = true -> in_range (pick 0 (legs T) b) o = true ->
          big (dv t (place (legs T) b o)) = true -> qprod G (pick (qe G) (qlegs T) b) = q) /\
       ((forall i, in_range (dsh t) i = true -> big (dv t i) = false) -> q = qe G))
    \/ (find_selection_rule big t T = Throw LogicError /\
        exists b o b' o', in_range (b_sbd T) b = true /\ in_range (pick 0 (legs T) b) o = true /\
          in_range (b_sbd T) b' = true /\ in_range (pick 0 (legs T) b') o' = true /\
          big (dv t (place (legs T) b o)) = true /\ big (dv t (place (legs T) b' o')) = true /\
          qprod G (pick (qe G) (qlegs T) b) <> qprod G (pick (qe G) (qlegs T) b')).
  Proof.
    intros HM HR Hsh. rewrite find_rule_eq by auto.
    assert (HL : length (legs T) = 2) by (rewrite legs_length; auto).
    assert (HQ : length (qlegs T) = 2) by (rewrite qlegs_length; auto).
    pose proof (legs_lens HM) as Hlens. pose proof (qlegs_lens HM) as Hql.
    unfold qat. destruct (legs T) as [|l0 [|l1 [|]]]; try discriminate. destruct (qlegs T) as [|q0 [|q1 [|]]]; try discriminate.
    rewrite <- Hlens in *. cbn [nth] in *. cbn [map] in Hsh. rewrite Hsh. cbn [nth]. unfold lens. cbn [map].
    set (L := flat_map _ _).
    assert (HLin : forall p, In p L <-> exists j i, j < sum_list l0 /\ i < sum_list l1 /\ big (dv t [j; i]) = true /\
       p = qop G (nth (fst (find_section l0 j)) q0 (qe G)) (nth (fst (find_section l1 i)) q1 (qe G))).
    { intros p. unfold L. rewrite in_flat_map. split.
      - intros [i [Hi Hp]]. apply in_map_iff in Hp as [j [<- Hj]]. apply filter_In in Hj as [Hj Hb]. apply in_seq in Hi. apply in_seq in Hj.
        exists j, i. repeat split; auto; lia.
      - intros [j [i [Hj [Hi [Hb ->]]]]]. exists i. split; [apply in_seq; lia|]. apply in_map_iff. exists j. split; auto.
        apply filter_In. split; auto. apply in_seq; lia. }
    assert (Hpl : forall b o, in_range [length l0; length l1] b = true -> in_range (pick 0 [l0; l1] b) o = true ->
      exists b0 b1 o0 o1, b = [b0; b1] /\ o = [o0; o1] /\ located l0 (nth 0 (place [l0; l1] b o) 0) b0 o0 /\
         located l1 (nth 1 (place [l0; l1] b o) 0) b1 o1 /\ place [l0;l1] b o = [nth 0 (place [l0; l1] b o) 0; nth 1 (place [l0; l1] b o) 0]).
    { intros b o Hb Ho. destruct b as [|b0 [|b1 [|]]]; try discriminate; cbn in Hb; try (rewrite ?andb_false_r in Hb; discriminate).
      cbn [pick] in Ho. destruct o as [|o0 [|o1 [|]]]; try discriminate; cbn in Ho; try (rewrite ?andb_false_r in Ho; discriminate).
      exists b0, b1, o0, o1. split; auto. split; auto. cbn [place nth].
      apply andb_true_iff in Hb as [Hb0 Hb1]. apply andb_true_iff in Hb1 as [Hb1 _].
      apply andb_true_iff in Ho as [Ho0 Ho1]. apply andb_true_iff in Ho1 as [Ho1 _].
      apply Nat.ltb_lt in Hb0, Hb1, Ho0, Ho1. split; [|split; [|reflexivity]]; (split; [auto|split; auto]). }
    destruct (hits_spec L) as [[q [E [H1 H2]]]|[E [p [q [H1 [H2 H3]]]]]].
    - left. exists q. rewrite E. cbn [rbind snd]. split; auto. split.
      + intros b o Hb Ho Hbig. destruct (Hpl b o Hb Ho) as [b0 [b1 [o0 [o1 [-> [-> [P1 [P2 P3]]]]]]]].
        rewrite P3 in Hbig. apply H1. apply HLin. exists (nth 0 (place [l0; l1] [b0; b1] [o0; o1]) 0), (nth 1 (place [l0; l1] [b0; b1] [o0; o1]) 0).
        split; [apply (located_lt P1)|]. split; [apply (located_lt P2)|]. split; auto.
        rewrite (find_section_unique P1), (find_section_unique P2). cbn. rewrite qop_e_r. reflexivity.
      + intros Hn. apply H2. destruct L as [|p L']; auto. exfalso.
        destruct (proj1 (HLin p) (or_introl eq_refl)) as [j [i [Hj [Hi [Hb _]]]]]. rewrite Hn in Hb; [discriminate|].
        cbn. rewrite (proj2 (Nat.ltb_lt _ _) Hj), (proj2 (Nat.ltb_lt _ _) Hi). reflexivity.
    - right. rewrite E. cbn [rbind]. split; auto.
      apply HLin in H1 as [j [i [Hj [Hi [Hb ->]]]]]. apply HLin in H2 as [j' [i' [Hj' [Hi' [Hb' ->]]]]].
      assert (HX : forall j i, j < sum_list l0 -> i < sum_list l1 ->
         exists b o, in_range [length l0; length l1] b = true /\ in_range (pick 0 [l0; l1] b) o = true /\ place [l0; l1] b o = [j; i] /\
           qprod G (pick (qe G) [q0; q1] b) = qop G (nth (fst (find_section l0 j)) q0 (qe G)) (nth (fst (find_section l1 i)) q1 (qe G))).
      { clear -Hql HL. intros j i Hj Hi. assert (Hr : in_range (tots [l0; l1]) [j; i] = true).
        { cbn. rewrite (proj2 (Nat.ltb_lt _ _) Hj), (proj2 (Nat.ltb_lt _ _) Hi). reflexivity. }
        destruct (unplace_spec _ _ Hr) as [U1 [U2 U3]].
        exists (blkL [l0; l1] [j; i]), (offL [l0; l1] [j; i]). split; [exact U1|]. split; [exact U2|]. split; [exact U3|].
        cbn. rewrite qop_e_r. reflexivity. }
      destruct (HX j i Hj Hi) as [b [o [X1 [X2 [X3 X4]]]]]. destruct (HX j' i' Hj' Hi') as [b' [o' [Y1 [Y2 [Y3 Y4]]]]].
      exists b, o, b', o'. split; auto. split; auto. split; auto. split; auto. rewrite X3, Y3. split; auto. split; auto.
      rewrite X4, Y4. exact H3.
  Qed.
End P.
