From Verif Require Import Base Quantity QuantityProofs FlatMap SpecFlatMap FlatMapProofs FlatMapThms Ring Index SpecIndex IndexProofs
  Dense BTensor SpecBTensor LegsProofs BTensorProofs BTensorThms BTensorArith ArithProofs Tensordot SpecTensordot TensordotProofs.
From Coq Require Import Permutation Sorted.
Set Implicit Arguments.

Lemma decode_unrank sh n : decode sh n = unrank sh n.
Proof. reflexivity. Qed.
Lemma decode_rowmajor sh i : in_range sh i = true -> decode sh (rowmajor sh i) = i.
Proof. rewrite decode_unrank. apply unrank_rowmajor. Qed.

Lemma existsb_eqb k (l : list nat) : existsb (Nat.eqb k) l = true <-> In k l.
Proof.
  rewrite existsb_exists. split; [intros [x [Hx E]]; apply Nat.eqb_eq in E; subst; auto|]. intros H. exists k. split; auto. apply Nat.eqb_refl.
Qed.
Lemma existsb_eqb_false k (l : list nat) : existsb (Nat.eqb k) l = false <-> ~ In k l.
Proof. rewrite <- existsb_eqb. destruct (existsb _ _); intuition congruence. Qed.
Lemma free_In n d k : In k (free n d) <-> k < n /\ ~ In k d.
Proof. unfold free. rewrite filter_In, in_seq, negb_true_iff, existsb_eqb_false. intuition lia. Qed.
Lemma free_NoDup n d : NoDup (free n d). Proof. apply NoDup_filter, seq_NoDup. Qed.
Lemma free_perm n d : NoDup d -> (forall k, In k d -> k < n) -> is_perm (free n d ++ d) n.
Proof.
  intros Hd Hl. unfold is_perm. apply NoDup_Permutation; [|apply seq_NoDup|].
  - apply NoDup_app_intro; auto using free_NoDup. intros x Hx. apply free_In in Hx as [_ H]. auto.
  - intros x. rewrite in_app_iff, free_In, in_seq. split.
    + intros [[H _]|H]; [lia|]. specialize (Hl x H). lia.
    + intros H. destruct (in_dec Nat.eq_dec x d); [right; auto|left; split; auto; lia].
Qed.
Lemma perm_app_comm p q n : is_perm (p ++ q) n -> is_perm (q ++ p) n.
Proof. unfold is_perm. intros H. eapply perm_trans; [apply Permutation_app_comm|exact H]. Qed.
Lemma gather_app A (d : A) p q l : gather d (p ++ q) l = gather d p l ++ gather d q l.
Proof. apply map_app. Qed.

Lemma index_of_notin k p q : ~ In k p -> index_of k (p ++ q) = length p + index_of k q.
Proof.
  induction p as [|x p IH]; cbn; auto. intros H. destruct (Nat.eqb_spec k x) as [->|Hn]; [exfalso; apply H; auto|].
  destruct (Nat.eqb_spec x k) as [->|Hn']; [exfalso; apply H; auto|]. rewrite IH; auto.
Qed.
Lemma index_of_in k p q : In k p -> index_of k (p ++ q) = index_of k p.
Proof.
  induction p as [|x p IH]; cbn; [intros []|]. intros H. destruct (Nat.eqb_spec x k) as [->|Hn]; auto.
  destruct H as [H|H]; [congruence|]. rewrite IH; auto.
Qed.
Lemma coords_l n d c i : NoDup d -> (forall k, In k d -> k < n) -> length i = length (free n d) ->
  coords n d c i = gather 0 (inv_perm (free n d ++ d)) (i ++ c).
Proof.
  intros Hd Hl Hi. pose proof (is_perm_length (free_perm Hd Hl)) as HL. unfold coords, gather, inv_perm. rewrite map_map, HL.
  apply map_ext_in. intros k Hk. apply in_seq in Hk. unfold slot. destruct (existsb (Nat.eqb k) d) eqn:E.
  - apply existsb_eqb in E. rewrite index_of_notin by (rewrite free_In; tauto). rewrite <- Hi, app_nth2_plus. reflexivity.
  - apply existsb_eqb_false in E. assert (Hf : In k (free n d)) by (apply free_In; split; auto; lia).
    rewrite index_of_in by auto. rewrite app_nth1; auto. rewrite Hi. apply (index_of_spec _ _ Hf).
Qed.
Lemma coords_r n d c i : NoDup d -> (forall k, In k d -> k < n) -> length c = length d ->
  coords n d c i = gather 0 (inv_perm (d ++ free n d)) (c ++ i).
Proof.
  intros Hd Hl Hc. pose proof (is_perm_length (perm_app_comm _ _ (free_perm Hd Hl))) as HL. unfold coords, gather, inv_perm. rewrite map_map, HL.
  apply map_ext_in. intros k Hk. apply in_seq in Hk. unfold slot. destruct (existsb (Nat.eqb k) d) eqn:E.
  - apply existsb_eqb in E. rewrite index_of_in by auto. rewrite app_nth1; auto. rewrite Hc. apply (index_of_spec _ _ E).
  - apply existsb_eqb_false in E. rewrite index_of_notin by auto. rewrite <- Hc, app_nth2_plus. reflexivity.
Qed.

Lemma app_inj_len A (a b c d : list A) : length a = length c -> a ++ b = c ++ d -> a = c /\ b = d.
Proof.
  revert c; induction a as [|x a IH]; intros [|y c] H E; cbn in *; try discriminate; auto. injection E as -> E. injection H as H.
  destruct (IH c H E) as [-> ->]. auto.
Qed.

(** Sums over keyed lists. *)
Section Keyed.
  Context {R : ring} {V : Type}.
  Add Ring Rr : (ring_th R).
  Lemma sum_assoc (g : list nat -> V -> R) (l : list (list nat * V)) U : NoDup (map fst l) -> NoDup U -> (forall e, In e l -> In (fst e) U) ->
    sumf R (fun e => g (fst e) (snd e)) l = sumf R (fun k => match assoc leqb k l with Some v => g k v | None => rz end) U.
  Proof.
    intros HN HU. induction l as [|[k v] l IH]; intros HI.
    - cbn. symmetry. apply sumf_zero. auto.
    - rewrite sumf_cons. cbn [fst snd]. cbn in HN. inversion HN as [|x y Hn HN']; subst. rewrite IH; auto; [|intros e He; apply HI; right; auto].
      assert (HkU : In k U) by (apply (HI (k, v)); left; auto).
      assert (HS : sumf R (fun k' => if leqb k k' then g k v else rz) U = g k v).
      { rewrite (sumf_single R (fun k' => if leqb k k' then g k v else rz) HU HkU); [rewrite leqb_refl; reflexivity|].
        intros a Ha Hne. replace (leqb k a) with false; auto. symmetry. apply leqb_neq. auto. }
      rewrite <- HS. rewrite <- sumf_add. apply sumf_ext. intros a Ha. cbn [assoc fst snd]. destruct (leqb k a) eqn:E.
      + apply leqb_eq in E. subst a. rewrite assoc_none_lt; [cbn; ring|]. intros e He E. apply Hn. rewrite <- E. apply in_map; auto.
      + ring.
  Qed.
End Keyed.

Section Core.
  Context {G : abgroup} {R : ring}.
  Add Ring Rr : (ring_th R).
  Notation entry := (list nat * dense R)%type.
  Variable imax : nat.

  Definition mat (split : nat) (t : dense R) : dense R := d_reshape [prod_list (firstn split (dsh t)); prod_list (skipn split (dsh t))] t.
  Lemma mat_dsh s1 s2 t : dsh t = s1 ++ s2 -> dsh (mat (length s1) t) = [prod_list s1; prod_list s2].
  Proof. intros E. unfold mat. rewrite E, firstn_mid, skipn_mid. reflexivity. Qed.
  Lemma mat_dv s1 s2 t o1 o2 : dsh t = s1 ++ s2 -> in_range s1 o1 = true -> in_range s2 o2 = true ->
    dv (mat (length s1) t) [rowmajor s1 o1; rowmajor s2 o2] = dv t (o1 ++ o2).
  Proof.
    intros E H1 H2. unfold mat. rewrite E, firstn_mid, skipn_mid. cbn [d_reshape dv]. rewrite E. f_equal.
    replace (rowmajor [prod_list s1; prod_list s2] [rowmajor s1 o1; rowmajor s2 o2]) with (rowmajor (s1 ++ s2) (o1 ++ o2)).
    - apply decode_rowmajor. rewrite in_range_app by (apply in_range_length; auto). rewrite H1, H2. reflexivity.
    - rewrite rowmajor_app by (apply in_range_length; auto). cbn. lia.
  Qed.

  Section Two.
    Variables T1 T2 out : btensor G R.
    Variables F1 F2 C : list (list nat).
    Variables Q1 Q2 QC1 QC2 : list (list G).
    Variables t1 t2 : list entry.
    Hypothesis V1 : valid T1.
    Hypothesis V2 : valid T2.
    Hypothesis L1 : legs T1 = F1 ++ C.
    Hypothesis L2 : legs T2 = C ++ F2.
    Hypothesis LQ1 : qlegs T1 = Q1 ++ QC1.
    Hypothesis LQ2 : qlegs T2 = QC2 ++ Q2.
    Hypothesis LenQ1 : length Q1 = length F1.
    Hypothesis LenQ2 : length Q2 = length F2.
    Hypothesis LenC1 : length QC1 = length C.
    Hypothesis LenC2 : length QC2 = length C.
    Hypothesis QC : forall c, in_range (lens C) c = true -> qop G (qprod G (pick (qe G) QC1 c)) (qprod G (pick (qe G) QC2 c)) = qe G.
    Hypothesis Mout : meta_ok out.
    Hypothesis Lout : legs out = F1 ++ F2.
    Hypothesis LQout : qlegs out = Q1 ++ Q2.
    Hypothesis Rout : b_rule out = qop G (b_rule T1) (b_rule T2).
    Notation m := (length C).
    Hypothesis S1 : sorted lexb t1.
    Hypothesis S2 : sorted lexb t2.
    Hypothesis K1 : keys_ok imax (length F1 + m) t1.
    Hypothesis K2 : keys_ok imax (length F2 + m) t2.
    Hypothesis A1 : forall f c, length f = length F1 -> length c = m -> assoc leqb (f ++ c) t1 = option_map (mat (length F1)) (assoc leqb (f ++ c) (b_blocks T1)).
    Hypothesis A2 : forall f c, length f = length F2 -> length c = m -> assoc leqb (f ++ c) t2 = option_map (mat m) (assoc leqb (c ++ f) (b_blocks T2)).

    Lemma in1 f c B : length f = length F1 -> length c = m -> assoc leqb (f ++ c) (b_blocks T1) = Some B ->
      in_range (lens F1) f = true /\ in_range (lens C) c = true /\ dsh B = pick 0 F1 f ++ pick 0 C c /\
      qop G (qprod G (pick (qe G) Q1 f)) (qprod G (pick (qe G) QC1 c)) = b_rule T1.
    Proof.
      intros Hf Hc E. destruct (valid_assoc _ V1 E) as [[H1 H2] H3]. rewrite <- (legs_lens (proj1 V1)), L1 in H1. unfold lens in H1. rewrite map_app in H1.
      rewrite in_range_app in H1 by (rewrite map_length; auto). apply andb_true_iff in H1 as [H1 H1']. rewrite L1, pick_app in H3 by auto.
      rewrite LQ1, pick_app, qprod_app in H2 by congruence. auto.
    Qed.
    Lemma in2 f c B : length f = length F2 -> length c = m -> assoc leqb (c ++ f) (b_blocks T2) = Some B ->
      in_range (lens F2) f = true /\ in_range (lens C) c = true /\ dsh B = pick 0 C c ++ pick 0 F2 f /\
      qop G (qprod G (pick (qe G) QC2 c)) (qprod G (pick (qe G) Q2 f)) = b_rule T2.
    Proof.
      intros Hf Hc E. destruct (valid_assoc _ V2 E) as [[H1 H2] H3]. rewrite <- (legs_lens (proj1 V2)), L2 in H1. unfold lens in H1. rewrite map_app in H1.
      rewrite in_range_app in H1 by (rewrite map_length; auto). apply andb_true_iff in H1 as [H1 H1']. rewrite L2, pick_app in H3 by auto.
      rewrite LQ2, pick_app, qprod_app in H2 by congruence. auto.
    Qed.

    (** Blocks of the operands behind a list entry. *)
    Lemma entry1 e : In e t1 -> exists f c B, fst e = f ++ c /\ length f = length F1 /\ length c = m /\ head_of m (fst e) = f /\ tail_of m (fst e) = c /\
      assoc leqb (f ++ c) (b_blocks T1) = Some B /\ snd e = mat (length F1) B.
    Proof.
      intros He. destruct (K1 e He) as [Hl _]. exists (head_of m (fst e)), (tail_of m (fst e)).
      assert (Hh : length (head_of m (fst e)) = length F1) by (rewrite head_len; lia).
      assert (Ht : length (tail_of m (fst e)) = m) by (apply tail_len; lia).
      pose proof (A1 _ _ Hh Ht) as E. rewrite head_tail in E |- *. destruct e as [k t]. cbn [fst snd] in *.
      rewrite (In_assoc KO _ _ S1 He) in E. destruct (assoc leqb k (b_blocks T1)) as [B|]; [|discriminate]. injection E as ->.
      exists B. repeat split; auto.
    Qed.
    Lemma entry2 e : In e t2 -> exists f c B, fst e = f ++ c /\ length f = length F2 /\ length c = m /\ head_of m (fst e) = f /\ tail_of m (fst e) = c /\
      assoc leqb (c ++ f) (b_blocks T2) = Some B /\ snd e = mat m B.
    Proof.
      intros He. destruct (K2 e He) as [Hl _]. exists (head_of m (fst e)), (tail_of m (fst e)).
      assert (Hh : length (head_of m (fst e)) = length F2) by (rewrite head_len; lia).
      assert (Ht : length (tail_of m (fst e)) = m) by (apply tail_len; lia).
      pose proof (A2 _ _ Hh Ht) as E. rewrite head_tail in E |- *. destruct e as [k t]. cbn [fst snd] in *.
      rewrite (In_assoc KO _ _ S2 He) in E. destruct (assoc leqb (_ ++ _) (b_blocks T2)) as [B|]; [|discriminate]. injection E as ->.
      exists B. repeat split; auto.
    Qed.

    Lemma col_lookup (l : list entry) n f c : sorted lexb l -> keys_ok imax n l -> m <= n -> length c = m ->
      assoc leqb c (tails m (col m l f)) = assoc leqb (f ++ c) l.
    Proof.
      intros HS HK Hm Hc. destruct (assoc leqb (f ++ c) l) as [v|] eqn:E.
      - apply (assoc_In KO) in E. apply (In_assoc KO); [apply (col_tails_sorted _ HS HK Hm)|]. apply in_map_iff. exists (f ++ c, v). cbn [fst snd].
        rewrite tail_app by auto. split; auto. apply filter_In. cbn [fst]. rewrite head_app, leqb_refl by auto. auto.
      - destruct (assoc leqb c (tails m (col m l f))) as [v|] eqn:E2; auto. exfalso. apply (assoc_In KO) in E2.
        apply in_map_iff in E2 as [[k v'] [[= E3 ->] Hi]]. apply filter_In in Hi as [Hi E4]. cbn [fst] in *. apply leqb_eq in E4.
        rewrite <- (head_tail m k), E3, E4 in Hi. apply (In_assoc KO) in Hi; auto. congruence.
    Qed.

    Definition pairval f1 f2 c i j : R :=
      match assoc leqb (f1 ++ c) t1, assoc leqb (f2 ++ c) t2 with Some a, Some b => mmv (a, b) i j | _, _ => rz end.
    Lemma matches_sum f1 f2 i j : length f1 = length F1 -> 
      sumf R (fun p => mmv p i j) (matches m (col m t1 f1) (col m t2 f2)) = sumf R (fun c => pairval f1 f2 c i j) (idxs (lens C)).
    Proof.
      intros Hf. unfold matches. rewrite sumf_flat_map.
      transitivity (sumf R (fun e => (fun k t => match assoc leqb k (tails m (col m t2 f2)) with Some b => mmv (t, b) i j | None => rz end) (fst e) (snd e)) (tails m (col m t1 f1))).
      - apply sumf_ext. intros e _. destruct (assoc _ _ _); cbn; auto. ring.
      - rewrite (sum_assoc (fun k t => match assoc leqb k (tails m (col m t2 f2)) with Some b => mmv (t, b) i j | None => rz end) (tails m (col m t1 f1)) (U := idxs (lens C))).
        + apply sumf_ext. intros c Hc. apply idxs_In in Hc. apply in_range_length in Hc. unfold lens in Hc. rewrite map_length in Hc.
          unfold pairval. rewrite !(col_lookup (n := length F1 + m)) by (auto; lia). rewrite !(col_lookup (n := length F2 + m)) by (auto; lia).
          destruct (assoc leqb (f1 ++ c) t1); auto.
        + apply sorted_nodup. apply (col_tails_sorted _ S1 K1). lia.
        + apply idxs_NoDup.
        + intros e He. apply in_map_iff in He as [x [<- Hx]]. cbn [fst]. apply filter_In in Hx as [Hx _].
          destruct (entry1 _ Hx) as (f & c & B & E1 & E2 & E3 & E4 & E5 & E6 & E7). apply idxs_In. rewrite E5. apply (in1 _ _ E2 E3 E6).
    Qed.

    Definition target f1 f2 o1 o2 : R :=
      sumf R (fun c => sumf R (fun oc => rmul (bentry T1 (f1 ++ c) (o1 ++ oc)) (bentry T2 (c ++ f2) (oc ++ o2))) (idxs (pick 0 C c))) (idxs (lens C)).
    Lemma pairval_target f1 f2 c o1 o2 : length f1 = length F1 -> length f2 = length F2 -> in_range (lens C) c = true ->
      in_range (pick 0 F1 f1) o1 = true -> in_range (pick 0 F2 f2) o2 = true ->
      pairval f1 f2 c (rowmajor (pick 0 F1 f1) o1) (rowmajor (pick 0 F2 f2) o2) =
      sumf R (fun oc => rmul (bentry T1 (f1 ++ c) (o1 ++ oc)) (bentry T2 (c ++ f2) (oc ++ o2))) (idxs (pick 0 C c)).
    Proof.
      intros H1 H2 Hc Ho1 Ho2. pose proof (in_range_length _ _ Hc) as Lc. unfold lens in Lc. rewrite map_length in Lc.
      unfold pairval, bentry. rewrite A1, A2 by auto.
      destruct (assoc leqb (f1 ++ c) (b_blocks T1)) as [B1|] eqn:E1; cbn [option_map].
      2:{ symmetry. apply sumf_zero. intros; ring. }
      destruct (assoc leqb (c ++ f2) (b_blocks T2)) as [B2|] eqn:E2; cbn [option_map].
      2:{ symmetry. apply sumf_zero. intros; ring. }
      destruct (in1 _ _ H1 Lc E1) as [_ [_ [D1 _]]]. destruct (in2 _ _ H2 Lc E2) as [_ [_ [D2 _]]].
      assert (P1 : length (pick 0 F1 f1) = length F1) by (apply pick_length; auto).
      assert (P2 : length (pick 0 C c) = m) by (apply pick_length; auto).
      unfold mmv. cbn [fst snd]. rewrite <- P1, <- P2. rewrite (mat_dsh _ _ _ D1). cbn [nth]. rewrite <- map_unrank_idxs, sumf_map.
      apply sumf_ext. intros q Hq. apply in_seq in Hq. set (oc := unrank (pick 0 C c) q).
      assert (Hoc : in_range (pick 0 C c) oc = true) by (apply idxs_In; rewrite <- map_unrank_idxs; apply in_map, in_seq; lia).
      assert (Eq : q = rowmajor (pick 0 C c) oc) by (symmetry; apply rowmajor_unrank; lia). rewrite Eq at 1 2.
      rewrite (mat_dv _ _ _ _ _ D1) by auto. rewrite (mat_dv _ _ _ _ _ D2) by auto. reflexivity.
    Qed.

    Hypothesis N1 : 0 < length F1 + m.
    Hypothesis N2 : 0 < length F2 + m.

    Lemma core : exists acc, outer_loop imax m out (Datatypes.S (length t1)) (Nat.max (prod_list (b_sbd out)) 1) t1 t2 [] = Ok acc /\
      let T := with_blocks out (fm_sort lexb acc) in valid T /\
      (forall f1 f2 o1 o2, in_range (lens F1) f1 = true -> in_range (lens F2) f2 = true ->
        in_range (pick 0 F1 f1) o1 = true -> in_range (pick 0 F2 f2) o2 = true ->
        bentry T (f1 ++ f2) (o1 ++ o2) = target f1 f2 o1 o2) /\
      forall k, assoc leqb k (b_blocks T) <> None <-> exists f1 f2 c, k = f1 ++ f2 /\ length f1 = length F1 /\ length f2 = length F2 /\ length c = m /\
        assoc leqb (f1 ++ c) (b_blocks T1) <> None /\ assoc leqb (c ++ f2) (b_blocks T2) <> None.
    Proof.
      assert (Hsb : b_sbd out = lens F1 ++ lens F2).
      { rewrite <- (legs_lens Mout), Lout. apply map_app. }
      assert (HMI : forall f1 f2 p, In p (matches m (col m t1 f1) (col m t2 f2)) -> exists c B1 B2, length c = m /\
           assoc leqb (f1 ++ c) (b_blocks T1) = Some B1 /\ assoc leqb (c ++ f2) (b_blocks T2) = Some B2 /\ p = (mat (length F1) B1, mat m B2)).
      { intros f1 f2 [pa pb] Hp. apply matches_In in Hp; [|apply (col_tails_sorted _ S2 K2); lia].
          destruct Hp as (x & y & Hx & Hy & Exy & -> & ->). apply filter_In in Hx as [Hx Ex]. apply filter_In in Hy as [Hy Ey].
          apply leqb_eq in Ex. apply leqb_eq in Ey.
          destruct (entry1 _ Hx) as (g1 & d1 & D1 & X1 & X2 & X3 & X4 & X5 & X6 & X7). destruct (entry2 _ Hy) as (g2 & d2 & D2 & Y1 & Y2 & Y3 & Y4 & Y5 & Y6 & Y7).
          exists d1, D1, D2. rewrite X7, Y7. rewrite Ex in X4. rewrite Ey in Y4. rewrite X5, Y5 in Exy. subst. auto. }
      (* facts on a pair of columns with a match *)
      assert (HM : forall e1 e2, In e1 t1 -> In e2 t2 -> let f1 := head_of m (fst e1) in let f2 := head_of m (fst e2) in
         length f1 = length F1 /\ length f2 = length F2 /\
         in_range (lens F1) f1 = true /\ in_range (lens F2) f2 = true /\
         block_sizes out (f1 ++ f2) = Ok (pick 0 F1 f1 ++ pick 0 F2 f2) /\
         Forall (fits (prod_list (pick 0 F1 f1)) (prod_list (pick 0 F2 f2))) (matches m (col m t1 f1) (col m t2 f2)) /\
         (matches m (col m t1 f1) (col m t2 f2) <> [] -> allowed out (f1 ++ f2))).
      { intros e1 e2 He1 He2 f1 f2.
        destruct (entry1 _ He1) as (g1 & c1 & B1 & E1 & E2 & E3 & E4 & E5 & E6 & E7). destruct (entry2 _ He2) as (g2 & c2 & B2 & H1 & H2 & H3 & H4 & H5 & H6 & H7).
        fold f1 in E4. fold f2 in H4. subst g1 g2. destruct (in1 _ _ E2 E3 E6) as [I1 _]. destruct (in2 _ _ H2 H3 H6) as [J1 _].
        assert (HR : in_range (b_sbd out) (f1 ++ f2) = true).
        { rewrite Hsb, in_range_app, I1, J1 by (apply in_range_length; auto). auto. }
        repeat split; auto.
        - rewrite (block_sizes_spec _ Mout HR), Lout, pick_app by auto. reflexivity.
        - apply Forall_forall. intros p Hp. destruct (HMI _ _ p Hp) as (c & D1 & D2 & Lc & X & Y & ->). exists (prod_list (pick 0 C c)). cbn [fst snd].
          destruct (in1 _ _ E2 Lc X) as [_ [_ [X1 _]]]. destruct (in2 _ _ H2 Lc Y) as [_ [_ [Y1 _]]]. split.
          + rewrite <- (pick_length 0 F1 f1) at 1 by auto. apply (mat_dsh _ _ _ X1).
          + rewrite <- (pick_length 0 C c) at 1 by auto. apply (mat_dsh _ _ _ Y1).
        - rewrite LQout, pick_app, qprod_app by congruence. rewrite Rout.
          destruct (matches m (col m t1 f1) (col m t2 f2)) as [|p r] eqn:EMm; [congruence|].
          destruct (HMI f1 f2 p) as (c & D1 & D2 & Lc & X & Y & _); [rewrite EMm; left; reflexivity|].
          destruct (in1 _ _ E2 Lc X) as [_ [X0 [_ X1]]]. destruct (in2 _ _ H2 Lc Y) as [_ [_ [_ Y1]]]. rewrite <- X1, <- Y1.
          pose proof (QC _ X0) as HQ. set (a := qprod G (pick (qe G) Q1 f1)). set (b := qprod G (pick (qe G) Q2 f2)).
          set (x := qprod G (pick _ QC1 c)) in *. set (y := qprod G (pick _ QC2 c)) in *.
          transitivity (qop G (qop G a (qop G x y)) b); [rewrite HQ, qop_e_r; reflexivity|]. rewrite !qop_assoc. reflexivity. }
      set (cap' := length t1 * length t2 + length t2 + Nat.max (prod_list (b_sbd out)) 1 + 1).
      destruct (@outer_spec G R imax m out (length F1 + m) (length F2 + m) (Datatypes.S (length t1)) cap' t1 t2 []) as [acc [O1 [O2 [O3 O4]]]]; auto; try lia.
      { unfold cap'. cbn [length]. lia. }
      { intros e1 e2 He1 He2 _. destruct (HM e1 e2 He1 He2) as [_ [_ [_ [_ [X1 [X2 _]]]]]]. cbn zeta in *.
        exists (prod_list (pick 0 F1 (head_of m (fst e1)))), (prod_list (pick 0 F2 (head_of m (fst e2)))). eexists. split; [exact X1|]. split; auto. apply prod_list_app. }
      cbn [app] in O1. exists acc.
      assert (Hkeys : forall k blk, In (k, blk) acc -> allowed out k /\ dsh blk = pick 0 (legs out) k).
      { intros k blk Hi. destruct (O3 _ _ Hi) as (e1 & e2 & He1 & He2 & -> & Hne & Hb).
        destruct (HM e1 e2 He1 He2) as [X1 [X2 [_ [_ [X3 [_ X4]]]]]]. cbn zeta in *. split; auto. destruct Hb as (x & y & sz & Y1 & Y2 & _).
        rewrite X3 in Y1. injection Y1 as <-. rewrite Lout, pick_app by auto. auto. }
      split.
      { apply outer_cap with (cap' := cap'); auto; [unfold cap'; lia|].
        rewrite <- (map_length fst acc). transitivity (length (idxs (b_sbd out))); [|rewrite idxs_length; lia].
        apply NoDup_incl_length; auto. intros k Hk. apply in_map_iff in Hk as [[k' blk] [E Hi]]. cbn in E. subst k'.
        apply idxs_In. apply (Hkeys _ _ Hi). }
      intros T. destruct (sort_nodup acc O2) as [SS SA]. split.
      - split; [exact Mout|]. split; [|exact SS]. intros k blk Hi. cbn [T with_blocks b_blocks] in Hi.
        apply (Permutation_in _ (Permutation_sym (fm_sort_perm acc))) in Hi. apply Hkeys; auto.
      - split; [|intros k; split].
        2:{ intros Hk. cbn [T with_blocks b_blocks] in Hk. rewrite SA in Hk. destruct (assoc leqb k acc) as [blk|] eqn:E; [clear Hk|congruence].
          apply (assoc_nodup _ _ _ O2) in E. destruct (O3 _ _ E) as (e1 & e2 & He1 & He2 & Ek & Hne & _). destruct (HM e1 e2 He1 He2) as [X1 [X2 _]]. cbn zeta in *.
          destruct (matches m _ _) as [|p r] eqn:EMm in Hne; [congruence|]. destruct (HMI (head_of m (fst e1)) (head_of m (fst e2)) p) as (c & D1 & D2 & Lc & X & Y & _); [rewrite EMm; left; reflexivity|].
          exists (head_of m (fst e1)), (head_of m (fst e2)), c. rewrite X, Y. repeat split; auto; discriminate. }
        2:{ intros (f1 & f2 & c & -> & Lf1 & Lf2 & Lc & H1 & H2). cbn [T with_blocks b_blocks]. rewrite SA.
          pose proof (A1 _ _ Lf1 Lc) as B1. pose proof (A2 _ _ Lf2 Lc) as B2.
          destruct (assoc leqb (f1 ++ c) (b_blocks T1)) as [D1|]; [|congruence]. destruct (assoc leqb (c ++ f2) (b_blocks T2)) as [D2|]; [|congruence].
          cbn [option_map] in B1, B2. apply (assoc_In KO) in B1. apply (assoc_In KO) in B2.
          pose proof (O4 _ _ B1 B2) as Hin. cbn [fst] in Hin. rewrite !head_app in Hin by exact Lc.
          assert (Hm : In (mat (length F1) D1, mat m D2) (matches m (col m t1 f1) (col m t2 f2))).
          { apply matches_In; [apply (col_tails_sorted _ S2 K2); lia|]. exists (f1 ++ c, mat (length F1) D1), (f2 ++ c, mat m D2). cbn [fst snd].
            unfold col. rewrite !filter_In. cbn [fst]. rewrite !head_app, !tail_app, !leqb_refl by exact Lc. auto. }
          specialize (Hin ltac:(intros E; rewrite E in Hm; destruct Hm)). intros E. apply in_map_iff in Hin as [[k' blk] [Ek Hi]]. cbn in Ek. subst k'.
          apply (assoc_nodup _ _ _ O2) in Hi. congruence. }
        intros f1 f2 o1 o2 Hf1 Hf2 Ho1 Ho2.
        assert (Lf1 : length f1 = length F1). { apply in_range_length in Hf1. unfold lens in Hf1. rewrite map_length in Hf1. auto. }
        assert (Lf2 : length f2 = length F2). { apply in_range_length in Hf2. unfold lens in Hf2. rewrite map_length in Hf2. auto. }
        assert (HT : sumf R (fun p => mmv p (rowmajor (pick 0 F1 f1) o1) (rowmajor (pick 0 F2 f2) o2)) (matches m (col m t1 f1) (col m t2 f2)) = target f1 f2 o1 o2).
        { rewrite matches_sum by auto. apply sumf_ext. intros c Hc. apply idxs_In in Hc. apply pairval_target; auto. }
        rewrite <- HT. unfold bentry. cbn [T with_blocks b_blocks]. rewrite SA. destruct (assoc leqb (f1 ++ f2) acc) as [blk|] eqn:E.
        + apply (assoc_nodup _ _ _ O2) in E. destruct (O3 _ _ E) as (e1 & e2 & He1 & He2 & Ek & Hne & Hb).
          destruct (HM e1 e2 He1 He2) as [X1 [X2 [_ [_ [X3 _]]]]]. cbn zeta in *.
          assert (Ef : f1 = head_of m (fst e1) /\ f2 = head_of m (fst e2)) by (apply app_inj_len; auto; congruence).
          destruct Ef as [Ef1 Ef2]. rewrite <- Ef1, <- Ef2 in X3, Hne, Hb. destruct Hb as (x & y & sz & Y1 & Y2 & Y3 & Y4 & Y5). rewrite X3 in Y1. injection Y1 as <-.
          destruct (matches m (col m t1 f1) (col m t2 f2)) as [|p r] eqn:EM; [congruence|].
          destruct (HM e1 e2 He1 He2) as [_ [_ [_ [_ [_ [X4 _]]]]]]. cbn zeta in X4. rewrite <- Ef1, <- Ef2, EM in X4.
          assert (Ey : y = prod_list (pick 0 F2 f2)).
          { inversion Y4 as [|z w Z1 _]; subst. inversion X4 as [|z w Z2 _]; subst. destruct Z1 as [k [_ Z1]]. destruct Z2 as [k' [_ Z2]].
            rewrite Z1 in Z2. injection Z2 as _ <-. reflexivity. }
          apply Y5; subst y; [|apply rowmajor_lt; auto]. apply rowmajor_app. apply in_range_length; auto.
        + destruct (matches m (col m t1 f1) (col m t2 f2)) as [|p r] eqn:EM; [reflexivity|]. exfalso.
          assert (Hp : In p (matches m (col m t1 f1) (col m t2 f2))) by (rewrite EM; left; auto). destruct p as [pa pb].
          apply matches_In in Hp; [|apply (col_tails_sorted _ S2 K2); lia]. destruct Hp as (x & y & Hx & Hy & _).
          apply filter_In in Hx as [Hx Ex]. apply filter_In in Hy as [Hy Ey]. apply leqb_eq in Ex. apply leqb_eq in Ey.
          pose proof (O4 x y Hx Hy) as Hin. rewrite Ex, Ey, EM in Hin. specialize (Hin ltac:(discriminate)).
          apply in_map_iff in Hin as [[k' blk] [Ek Hi]]. cbn in Ek. subst k'. apply (assoc_nodup _ _ _ O2) in Hi. congruence.
    Qed.
  End Two.
End Core.

Section Final.
  Context {G : abgroup} {R : ring}.
  Variable imax : nat.
  Notation entry := (list nat * dense R)%type.
  Implicit Types T : btensor G R.

  Lemma concat_length A (L : list (list A)) : length (concat L) = sum_list (lens L).
  Proof. induction L as [|x L IH]; auto. cbn [concat lens map]. rewrite app_length, sum_list_cons, IH. reflexivity. Qed.
  (** A tensor made from a list of legs. *)
  Lemma from_legs r n (L : list (list nat)) (Q : list (list G)) : n = length L -> lens Q = lens L ->
    let T := @mkB G R r n (lens L) (concat L) (concat Q) [] in meta_ok T /\ legs T = L /\ qlegs T = Q /\ valid T.
  Proof.
    intros -> HQ T. assert (HM : meta_ok T).
    { repeat split; cbn; [unfold lens; apply map_length|symmetry; apply concat_length|rewrite <- HQ; symmetry; apply concat_length]. }
    split; auto. split; [apply unpack_concat|]. split; [unfold qlegs; cbn; rewrite <- HQ; apply unpack_concat|].
    split; auto. split; [intros ? ? []|constructor].
  Qed.
  Lemma gather_prange A T (c : list A) p : meta_ok T -> (forall k, In k p -> k < b_rank T) ->
    flat_map (fun d => prange (b_sbd T) c d) p = concat (gather [] p (unpack (b_sbd T) c)).
  Proof.
    intros [M1 _] Hp. rewrite <- flat_map_gather. rewrite !flat_map_concat_map. f_equal. apply map_ext_in. intros d Hd.
    apply prange_unpack. rewrite M1. auto.
  Qed.

  Lemma check_ok T1 T2 d1 d2 : meta_ok T1 -> meta_ok T2 -> compatible T1 T2 d1 d2 -> check_product_compat T1 T2 d1 d2 = Ok tt.
  Proof.
    intros M1 M2 (H1 & H2 & H3 & H4 & H5 & H6). unfold check_product_compat.
    rewrite rfold_pure with (g := fun _ _ => tt).
    - destruct (fold_left _ _ _). reflexivity.
    - intros _ [i j] Hij. destruct (In_nth _ _ (0, 0) Hij) as [t [Ht E]]. rewrite combine_length, <- H1, Nat.min_id in Ht.
      rewrite combine_nth in E by auto. injection E as <- <-. destruct (H6 t Ht) as [E1 E2].
      assert (I1 : nth t d1 0 < b_rank T1) by (apply H4, nth_In; auto). assert (I2 : nth t d2 0 < b_rank T2) by (apply H5, nth_In; lia).
      set (i := nth t d1 0) in *. set (j := nth t d2 0) in *.
      rewrite (rnth_Ok 0) by (rewrite (proj1 M1); auto). cbn [rbind]. rewrite (rnth_Ok 0) by (rewrite (proj1 M2); auto). cbn [rbind].
      assert (S1 : nth i (b_sbd T1) 0 = length (nth i (legs T1) [])).
      { rewrite <- (legs_lens M1). unfold lens. change 0 with (length (@nil nat)). apply map_nth. }
      assert (S2 : nth j (b_sbd T2) 0 = length (nth j (legs T2) [])).
      { rewrite <- (legs_lens M2). unfold lens. change 0 with (length (@nil nat)). apply map_nth. }
      rewrite S1, S2, E1, Nat.eqb_refl. cbn [negb].
      rewrite !prange_unpack by (rewrite ?(proj1 M1), ?(proj1 M2); auto). fold (qlegs T1). fold (qlegs T2).
      assert (Q1 : nth i (b_sbd T1) 0 = length (nth i (qlegs T1) [])).
      { rewrite <- (qlegs_lens M1). unfold lens. change 0 with (length (@nil G)). apply map_nth. }
      assert (Q2 : nth j (b_sbd T2) 0 = length (nth j (qlegs T2) [])).
      { rewrite <- (qlegs_lens M2). unfold lens. change 0 with (length (@nil G)). apply map_nth. }
      replace (forallb _ _) with true; auto. symmetry. apply forallb_forall. intros [a b] Hab.
      destruct (In_nth _ _ (qe G, qe G) Hab) as [s [Hs E]].
      assert (Hl : length (nth i (qlegs T1) []) = length (nth j (qlegs T2) [])) by congruence.
      rewrite combine_length, <- Hl, Nat.min_id in Hs. rewrite combine_nth in E by auto. injection E as <- <-.
      apply qeqb_spec. auto.
  Qed.
  Lemma distinct_spec l : distinct l = true <-> NoDup l.
  Proof.
    induction l as [|x l IH]; cbn; [split; auto using NoDup_nil|]. rewrite andb_true_iff, negb_true_iff, existsb_eqb_false, IH.
    split; [intros []; constructor; auto|inversion 1; auto].
  Qed.
  Lemma shape_ok T1 T2 d1 d2 : meta_ok T1 -> meta_ok T2 -> compatible T1 T2 d1 d2 ->
    let f1 := free (b_rank T1) d1 in let f2 := free (b_rank T2) d2 in
    compute_tdot_shape T1 T2 d1 d2 = Ok (f1 ++ d1, d2 ++ f2, gather 0 f1 (b_sbd T1) ++ gather 0 f2 (b_sbd T2)).
  Proof.
    intros M1 M2 HC f1 f2. pose proof HC as (H1 & H2 & H3 & H4 & H5 & _). unfold compute_tdot_shape. rewrite H1, Nat.eqb_refl. cbn [negb].
    rewrite check_ok by auto. cbn [rbind]. unfold bitset_ok.
    rewrite (proj2 (distinct_spec d1) H2), (proj2 (distinct_spec d2) H3).
    replace (forallb (fun x => x <? b_rank T1) d1) with true by (symmetry; apply forallb_forall; intros x Hx; apply Nat.ltb_lt; auto).
    replace (forallb (fun x => x <? b_rank T2) d2) with true by (symmetry; apply forallb_forall; intros x Hx; apply Nat.ltb_lt; auto).
    cbn [andb negb]. change (others (b_rank T1) d1) with f1. change (others (b_rank T2) d2) with f2.
    rewrite (rmapM_rnth 0) by (intros k Hk; apply free_In in Hk as [Hk _]; rewrite (proj1 M1); auto). cbn [rbind].
    rewrite (rmapM_rnth 0) by (intros k Hk; apply free_In in Hk as [Hk _]; rewrite (proj1 M2); auto). reflexivity.
  Qed.

  Lemma assoc_map_inj V W (h : list nat -> list nat) (g : V -> W) l k : (forall e, In e l -> h (fst e) = h k -> fst e = k) ->
    assoc leqb (h k) (map (fun e => (h (fst e), g (snd e))) l) = option_map g (assoc leqb k l).
  Proof.
    induction l as [|e l IH]; intros H; auto. cbn [map assoc fst snd]. destruct (leqb (fst e) k) eqn:E.
    - apply leqb_eq in E. rewrite E, leqb_refl. reflexivity.
    - replace (leqb (h (fst e)) (h k)) with false; [apply IH; intros x Hx; apply H; right; auto|].
      symmetry. apply leqb_neq. apply leqb_neq in E. intros E2. apply E. apply H; auto. left; auto.
  Qed.
  Lemma permute_bl_spec T bp tp split : valid T -> is_perm bp (b_rank T) -> is_perm tp (b_rank T) -> (forall s, In s (b_sbd T) -> s <= imax) ->
    exists l, permute_bl (b_blocks T) bp tp split = Ok l /\ sorted lexb l /\ keys_ok imax (b_rank T) l /\
      forall k, length k = b_rank T -> assoc leqb (gather 0 bp k) l = option_map (fun t => mat split (d_permute tp t)) (assoc leqb k (b_blocks T)).
  Proof.
    intros HV HB HT HI. pose proof HV as [HM [HBk HS]]. pose proof HM as [M1 _]. pose proof (legs_length HM) as LL.
    assert (HE : forall k t, In (k, t) (b_blocks T) -> length k = b_rank T /\ length (dsh t) = b_rank T /\ in_range (b_sbd T) k = true).
    { intros k t Hi. destruct (HBk _ _ Hi) as [[Hr _] Hs]. pose proof (in_range_length _ _ Hr) as Hl. rewrite M1 in Hl. split; auto. split; auto.
      rewrite Hs, pick_length; congruence. }
    destruct (permute_blocks HV HB) as [BN BA].
    set (l := map (fun e : entry => (gather 0 bp (fst e), mat split (d_permute tp (snd e)))) (b_blocks T)).
    assert (HN : NoDup (map fst l)). { unfold l. rewrite map_map. rewrite map_map in BN. exact BN. }
    destruct (sort_nodup l HN) as [SS SA]. exists (fm_sort lexb l). split; [|split; [auto|split]].
    - unfold permute_bl. rewrite rmapM_pure with (g := fun e => (gather 0 bp (fst e), mat split (d_permute tp (snd e)))); [reflexivity|].
      intros [k t] Hi. destruct (HE _ _ Hi) as [E1 [E2 _]].
      rewrite (rmapM_rnth 0) by (intros j Hj; rewrite E1; apply (Permutation_in _ HB) in Hj; apply in_seq in Hj; lia). cbn [rbind].
      unfold t_permute. rewrite (proj2 (is_permb_spec _ _)) by (rewrite E2; auto). cbn [rbind]. unfold t_reshape.
      set (t' := d_permute tp t). replace (prod_list [prod_list (firstn split (dsh t')); prod_list (skipn split (dsh t'))]) with (prod_list (dsh t')).
      + rewrite Nat.eqb_refl. reflexivity.
      + rewrite <- (firstn_skipn split (dsh t')) at 1. rewrite prod_list_app. cbn. lia.
    - intros e He. apply (Permutation_in _ (Permutation_sym (fm_sort_perm l))) in He. apply in_map_iff in He as [[k t] [<- Hi]]. cbn [fst snd].
      destruct (HE _ _ Hi) as [E1 [E2 E3]]. split; [rewrite gather_length; apply (is_perm_length HB)|].
      intros x Hx. apply in_map_iff in Hx as [j [<- Hj]]. apply (Permutation_in _ HB) in Hj. apply in_seq in Hj.
      apply in_range_nth in E3 as [_ E3]. specialize (E3 j ltac:(lia)). specialize (HI (nth j (b_sbd T) 0) ltac:(apply nth_In; lia)). lia.
    - intros k Hk. rewrite SA. unfold l. apply (assoc_map_inj (gather 0 bp) (fun t => mat split (d_permute tp t))). intros [k' t'] Hi E. cbn [fst] in *. destruct (HE _ _ Hi) as [E1 _].
      rewrite <- (gather_inv 0 (p := bp) k'), <- (gather_inv 0 (p := bp) k) by congruence. congruence.
  Qed.

  Lemma contracted_neutral (L : list (list nat)) (A B : list (list G)) c : length A = length L -> length B = length L -> lens A = lens L ->
    (forall j, j < length L -> forall s, s < length (nth j A []) -> qop G (nth s (nth j A []) (qe G)) (nth s (nth j B []) (qe G)) = qe G) ->
    in_range (lens L) c = true -> qop G (qprod G (pick (qe G) A c)) (qprod G (pick (qe G) B c)) = qe G.
  Proof.
    revert A B c. induction L as [|x L IH]; intros [|a A] [|b B] [|k c] HA HB HL H Hc; cbn in HA, HB; try lia; try discriminate.
    - cbn. apply qop_e_l.
    - cbn [lens map] in HL, Hc. injection HL as H0 HL. apply in_range_cons in Hc as [Hk Hc]. cbn [pick].
      change (qop G (qop G (nth k a (qe G)) (qprod G (pick (qe G) A c))) (qop G (nth k b (qe G)) (qprod G (pick (qe G) B c))) = qe G).
      rewrite qop_swap. pose proof (H 0 ltac:(cbn; lia) k ltac:(cbn; lia)) as H0'. cbn [nth] in H0'. rewrite H0', qop_e_l. apply IH; auto. intros j Hj. apply (H (Datatypes.S j)). cbn; lia.
  Qed.
  Lemma permute_nat T p : valid T -> is_perm p (b_rank T) -> exists T', valid T' /\ permuted T p T'.
  Proof.
    intros HV HP. destruct (@permute_spec G R T (map Z.of_nat p) p HV) as [T' [_ H]]; [|auto|exists T'; auto].
    assert (Hp : forall k, In k p -> k < b_rank T) by (intros k Hk; apply (Permutation_in _ HP) in Hk; apply in_seq in Hk; lia).
    replace p with (map (fun z => Z.to_nat z) (map Z.of_nat p)) at 2 by (rewrite map_map; erewrite map_ext; [apply map_id|intros; apply Nat2Z.id]).
    apply rmapM_pure. intros z Hz. apply in_map_iff in Hz as [k [<- Hk]]. specialize (Hp k Hk). unfold zdim, pos_dim.
    destruct (Z.ltb_spec (Z.of_nat k) 0); [lia|]. destruct (Z.leb_spec 0 (Z.of_nat k)); [|lia].
    destruct (Z.ltb_spec (Z.of_nat k) (Z.of_nat (b_rank T))); [|lia]. reflexivity.
  Qed.
  Lemma permuted_at T p T' k : is_perm p (b_rank T) -> permuted T p T' -> length k = b_rank T ->
    assoc leqb k (b_blocks T') = option_map (d_permute p) (assoc leqb (gather 0 (inv_perm p) k) (b_blocks T)).
  Proof.
    intros HP (_ & _ & _ & _ & _ & H) Hk. rewrite <- (gather_inv' 0 (p := p) k) at 1 by (rewrite Hk; auto). apply H.
    rewrite gather_length, inv_perm_length. apply (is_perm_length HP).
  Qed.

  Lemma valid_key T k : valid T -> assoc leqb k (b_blocks T) <> None -> length k = b_rank T.
  Proof.
    intros HV H. destruct (assoc leqb k (b_blocks T)) as [B|] eqn:E; [|congruence]. destruct (valid_assoc _ HV E) as [[H1 _] _].
    apply in_range_length in H1. rewrite H1. apply (proj1 HV).
  Qed.
  Lemma tensordot_full T1 T2 d1 d2 : valid T1 -> valid T2 -> compatible T1 T2 d1 d2 -> 0 < b_rank T1 -> 0 < b_rank T2 ->
    (forall s, In s (b_sbd T1 ++ b_sbd T2) -> s <= imax) ->
    exists T, tensordot imax T1 T2 d1 d2 = Ok T /\ valid T /\ tdot_meta T1 T2 d1 d2 T /\ tdot_blocks T1 T2 d1 d2 T /\
      forall D1 D2, dense_form T1 D1 -> dense_form T2 D2 -> dense_form T (d_tdot D1 D2 d1 d2).
  Proof.
    intros V1 V2 HC N1 N2 HI. pose proof V1 as [M1 _]. pose proof V2 as [M2 _]. pose proof HC as (C1 & C2 & C3 & C4 & C5 & C6).
    pose proof (legs_length M1) as LL1. pose proof (legs_length M2) as LL2. pose proof (qlegs_length M1) as LQ1. pose proof (qlegs_length M2) as LQ2.
    set (f1 := free (b_rank T1) d1). set (f2 := free (b_rank T2) d2).
    pose proof (free_perm C2 C4) as P1. pose proof (perm_app_comm _ _ (free_perm C3 C5)) as P2. pose proof (free_perm C3 C5) as P2'. fold f1 in P1. fold f2 in P2, P2'.
    pose proof (is_perm_length P1) as LP1. pose proof (is_perm_length P2) as LP2. rewrite app_length in LP1, LP2.
    destruct (permute_nat V1 P1) as [U1 [W1 PU1]]. destruct (permute_nat V2 P2) as [U2 [W2 PU2]].
    set (F1 := gather [] f1 (legs T1)). set (F2 := gather [] f2 (legs T2)). set (C := gather [] d1 (legs T1)).
    set (Q1 := gather [] f1 (qlegs T1)). set (Q2 := gather [] f2 (qlegs T2)). set (QC1 := gather [] d1 (qlegs T1)). set (QC2 := gather [] d2 (qlegs T2)).
    assert (LC : length C = length d1) by (unfold C; apply gather_length).
    assert (EC : C = gather [] d2 (legs T2)).
    { unfold C. apply nth_ext' with (d := []); [rewrite !gather_length; auto|]. rewrite gather_length. intros j Hj. rewrite !gather_nth by lia. apply (C6 j Hj). }
    assert (HL1 : legs U1 = F1 ++ C). { destruct PU1 as (_ & _ & _ & E & _). rewrite E, gather_app. reflexivity. }
    assert (HL2 : legs U2 = C ++ F2). { destruct PU2 as (_ & _ & _ & E & _). rewrite E, gather_app, EC. reflexivity. }
    assert (HQ1 : qlegs U1 = Q1 ++ QC1). { destruct PU1 as (_ & _ & _ & _ & E & _). rewrite E, gather_app. reflexivity. }
    assert (HQ2 : qlegs U2 = QC2 ++ Q2). { destruct PU2 as (_ & _ & _ & _ & E & _). rewrite E, gather_app. reflexivity. }
    assert (LF1 : length F1 = length f1) by apply gather_length. assert (LF2 : length F2 = length f2) by apply gather_length.
    assert (SB1 : gather 0 f1 (b_sbd T1) = lens F1). { unfold F1, lens. rewrite map_gather. cbn [length]. f_equal. symmetry. apply (legs_lens M1). }
    assert (SB2 : gather 0 f2 (b_sbd T2) = lens F2). { unfold F2, lens. rewrite map_gather. cbn [length]. f_equal. symmetry. apply (legs_lens M2). }
    assert (SQ1 : lens Q1 = lens F1). { rewrite <- SB1. unfold Q1, lens. rewrite map_gather. cbn [length]. f_equal. apply (qlegs_lens M1). }
    assert (SQ2 : lens Q2 = lens F2). { rewrite <- SB2. unfold Q2, lens. rewrite map_gather. cbn [length]. f_equal. apply (qlegs_lens M2). }
    destruct (@from_legs (qop G (b_rule T1) (b_rule T2)) (length (F1 ++ F2)) (F1 ++ F2) (Q1 ++ Q2) eq_refl) as [MO [LO [LQO VO]]].
    { unfold lens in *. rewrite !map_app. congruence. }
    set (out := @mkB G R (qop G (b_rule T1) (b_rule T2)) (length (F1 ++ F2)) (lens (F1 ++ F2)) (concat (F1 ++ F2)) (concat (Q1 ++ Q2)) []) in *.
    destruct (@permute_bl_spec T1 (f1 ++ d1) (f1 ++ d1) (b_rank T1 - length d1) V1 P1 P1) as (t1 & X1 & X2 & X3 & X4).
    { intros s Hs. apply HI, in_or_app; auto. }
    destruct (@permute_bl_spec T2 (f2 ++ d2) (d2 ++ f2) (length d1) V2 P2' P2) as (t2 & Y1 & Y2 & Y3 & Y4).
    { intros s Hs. apply HI, in_or_app; auto. }
    assert (ER : b_rule U1 = b_rule T1 /\ b_rule U2 = b_rule T2) by (split; [apply PU1|apply PU2]). destruct ER as [ER1 ER2].
    destruct (@core G R imax U1 U2 out F1 F2 C Q1 Q2 QC1 QC2 t1 t2) as (acc & O1 & O2 & O3 & OK); auto; try congruence.
    all: try (rewrite ?LF1, ?LF2, ?LC; unfold Q1, Q2, QC1, QC2; rewrite ?gather_length; lia).
    { intros c Hc. apply contracted_neutral with (L := C); auto.
      - unfold QC1. rewrite gather_length. auto.
      - unfold QC2. rewrite gather_length. congruence.
      - unfold QC1, C, lens. rewrite !map_gather. cbn [length]. f_equal. pose proof (legs_lens M1). pose proof (qlegs_lens M1). unfold lens in *. congruence.
      - rewrite LC. intros j Hj s. unfold QC1, QC2. rewrite !gather_nth by lia. apply (C6 j Hj). }
    { cbn. rewrite ER1, ER2. reflexivity. }
    { replace (length F1 + length C) with (b_rank T1) by lia. auto. }
    { replace (length F2 + length C) with (b_rank T2) by lia. auto. }
    { intros f c Hf Hc. rewrite (permuted_at _ P1 PU1) by (rewrite app_length; lia).
      rewrite <- (gather_inv' 0 (p := f1 ++ d1) (f ++ c)) at 1 by (rewrite app_length; replace (length f + length c) with (b_rank T1) by lia; auto).
      rewrite X4 by (rewrite gather_length, inv_perm_length, app_length; lia). replace (b_rank T1 - length d1) with (length F1) by lia.
      destruct (assoc _ _ _); reflexivity. }
    { intros f c Hf Hc. rewrite (permuted_at _ P2 PU2) by (rewrite app_length; lia). set (k := gather 0 (inv_perm (d2 ++ f2)) (c ++ f)).
      assert (Hk : length k = b_rank T2) by (unfold k; rewrite gather_length, inv_perm_length, app_length; lia).
      assert (Ek : gather 0 (f2 ++ d2) k = f ++ c).
      { assert (E : gather 0 (d2 ++ f2) k = c ++ f) by (unfold k; apply gather_inv'; rewrite app_length; replace (length c + length f) with (b_rank T2) by lia; auto).
        rewrite gather_app in E |- *. apply app_inj_len in E as [-> ->]; auto. rewrite gather_length. lia. }
      rewrite <- Ek. rewrite (Y4 k Hk). rewrite LC. destruct (assoc _ _ _); reflexivity. }
    exists (with_blocks out (fm_sort lexb acc)). split; [|split; [auto|split; [|split]]].
    - unfold tensordot. rewrite (shape_ok M1 M2 HC). fold f1 f2. cbn [rbind]. rewrite X1. cbn [rbind].
      rewrite C1, skipn_mid, firstn_mid, <- C1. rewrite Y1. cbn [rbind].
      replace (@mkB G R _ _ _ _ _ []) with out.
      + rewrite (valid_make VO). cbn [rbind]. rewrite <- LC. replace (gather 0 f1 (b_sbd T1) ++ gather 0 f2 (b_sbd T2)) with (b_sbd out); [rewrite O1; reflexivity|].
        rewrite SB1, SB2. cbn. apply map_app.
      + unfold out, tdot_packed.
        replace (skipn (length d1) (d2 ++ f2)) with f2 by (rewrite C1, skipn_mid; reflexivity).
        replace (firstn (length (f1 ++ d1) - length d1) (f1 ++ d1)) with f1
          by (rewrite app_length; replace (length f1 + length d1 - length d1) with (length f1) by lia; rewrite firstn_mid; reflexivity).
        assert (I1 : forall k, In k f1 -> k < b_rank T1) by (intros k Hk; apply free_In in Hk; apply Hk).
        assert (I2 : forall k, In k f2 -> k < b_rank T2) by (intros k Hk; apply free_In in Hk; apply Hk).
        rewrite !gather_prange by auto. fold (legs T1) (legs T2) (qlegs T1) (qlegs T2). fold F1 F2 Q1 Q2. rewrite <- !concat_app. rewrite SB1, SB2.
        unfold lens. rewrite <- map_app, map_length. reflexivity.
    - split; [reflexivity|]. split; [exact LO|exact LQO].
    - intros k. rewrite OK. clear OK O1 O2 O3. split.
      + intros (g1 & g2 & c & -> & Lg1 & Lg2 & Lc & H1 & H2).
        rewrite (permuted_at _ P1 PU1) in H1 by (rewrite app_length; lia). rewrite (permuted_at _ P2 PU2) in H2 by (rewrite app_length; lia).
        set (k1 := gather 0 (inv_perm (f1 ++ d1)) (g1 ++ c)) in *. set (k2 := gather 0 (inv_perm (d2 ++ f2)) (c ++ g2)) in *.
        assert (E1 : gather 0 (f1 ++ d1) k1 = g1 ++ c) by (unfold k1; apply gather_inv'; rewrite app_length; replace (length g1 + length c) with (b_rank T1) by lia; auto).
        assert (E2 : gather 0 (d2 ++ f2) k2 = c ++ g2) by (unfold k2; apply gather_inv'; rewrite app_length; replace (length c + length g2) with (b_rank T2) by lia; auto).
        rewrite gather_app in E1, E2. apply app_inj_len in E1 as [E1 E1']; [|rewrite gather_length; lia]. apply app_inj_len in E2 as [E2 E2']; [|rewrite gather_length; lia].
        exists k1, k2. fold f1 f2. rewrite E1, E1', E2, E2'. repeat split; [destruct (assoc leqb k1 _)|destruct (assoc leqb k2 _)]; try discriminate; contradiction.
      + intros (k1 & k2 & H1 & H2 & E & ->). fold f1 f2. pose proof (valid_key _ V1 H1) as K1. pose proof (valid_key _ V2 H2) as K2.
        exists (gather 0 f1 k1), (gather 0 f2 k2), (gather 0 d1 k1). rewrite !gather_length. repeat split; try lia.
        * rewrite (permuted_at _ P1 PU1) by (rewrite app_length, !gather_length; lia). rewrite <- gather_app, gather_inv by (rewrite K1; auto).
          destruct (assoc leqb k1 _); [discriminate|contradiction].
        * rewrite E. rewrite (permuted_at _ P2 PU2) by (rewrite app_length, !gather_length; lia). rewrite <- gather_app, gather_inv by (rewrite K2; auto).
          destruct (assoc leqb k2 _); [discriminate|contradiction].
    - intros D1 D2 FD1 FD2. pose proof FD1 as [E1 _]. pose proof FD2 as [E2 _].
      assert (SD1 : length (dsh D1) = b_rank T1) by (rewrite E1, map_length; auto). assert (SD2 : length (dsh D2) = b_rank T2) by (rewrite E2, map_length; auto).
      pose proof (permuted_dense V1 P1 PU1 FD1) as [_ G1]. pose proof (permuted_dense V2 P2 PU2 FD2) as [_ G2].
      split.
      + cbn [d_tdot dsh]. rewrite SD1, SD2, E1, E2. fold f1 f2. change (legs (with_blocks out (fm_sort lexb acc))) with (legs out). rewrite LO, map_app.
        unfold F1, F2. rewrite !map_gather. reflexivity.
      + change (b_sbd (with_blocks out (fm_sort lexb acc))) with (b_sbd out). change (legs (with_blocks out (fm_sort lexb acc))) with (legs out).
        rewrite LO. assert (Hsb : b_sbd out = lens F1 ++ lens F2) by apply map_app. rewrite Hsb. intros b o Hb Ho.
        assert (Lb : length b = length F1 + length F2). { apply in_range_length in Hb. rewrite app_length in Hb. unfold lens in Hb. rewrite !map_length in Hb. auto. }
        rewrite <- (firstn_skipn (length F1) b) in Hb, Ho |- *. set (b1 := firstn (length F1) b) in *. set (b2 := skipn (length F1) b) in *.
        assert (Lb1 : length b1 = length F1) by (unfold b1; rewrite firstn_length; lia). assert (Lb2 : length b2 = length F2) by (unfold b2; rewrite skipn_length; lia).
        rewrite pick_app in Ho by auto. rewrite in_range_app in Hb by (unfold lens; rewrite map_length; auto). apply andb_true_iff in Hb as [Hb1 Hb2].
        assert (Lo : length o = length F1 + length F2). { apply in_range_length in Ho. rewrite app_length, !pick_length in Ho; auto. }
        rewrite <- (firstn_skipn (length F1) o) in Ho |- *. set (o1 := firstn (length F1) o) in *. set (o2 := skipn (length F1) o) in *.
        assert (Lo1 : length o1 = length F1) by (unfold o1; rewrite firstn_length; lia). assert (Lo2 : length o2 = length F2) by (unfold o2; rewrite skipn_length; lia).
        rewrite in_range_app in Ho by (rewrite pick_length; auto). apply andb_true_iff in Ho as [Ho1 Ho2].
        rewrite (O3 b1 b2 o1 o2 Hb1 Hb2 Ho1 Ho2). rewrite place_app by auto. cbn [d_tdot dv]. rewrite SD1, SD2. fold f1 f2.
        assert (Lp1 : length (place F1 b1 o1) = length f1) by (rewrite place_length; auto).
        rewrite <- Lp1, firstn_mid, skipn_mid.
        replace (gather 0 d1 (dsh D1)) with (tots C). 2:{ rewrite E1. unfold C, tots. rewrite map_gather. reflexivity. }
        rewrite sum_places. unfold target. apply sumf_ext. intros c Hc. apply sumf_ext. intros oc Hoc. apply idxs_In in Hc. apply idxs_In in Hoc.
        assert (Lc : length c = length C). { apply in_range_length in Hc. unfold lens in Hc. rewrite map_length in Hc. auto. }
        assert (Loc : length oc = length C). { apply in_range_length in Hoc. rewrite pick_length in Hoc; auto. }
        assert (Lpc : length (place C c oc) = length d1) by (rewrite place_length; auto; lia).
        rewrite coords_l by auto. rewrite coords_r by (auto; lia). fold f1 f2. rewrite <- !place_app by auto. rewrite <- HL1, <- HL2. f_equal.
        * apply (G1 (b1 ++ c) (o1 ++ oc)).
          -- rewrite <- (legs_lens (proj1 W1)), HL1. unfold lens. rewrite map_app, in_range_app by (rewrite map_length; auto). unfold lens in Hb1, Hc. rewrite Hb1, Hc. reflexivity.
          -- rewrite HL1, pick_app, in_range_app by (rewrite ?pick_length; auto). rewrite Ho1, Hoc. reflexivity.
        * apply (G2 (c ++ b2) (oc ++ o2)).
          -- rewrite <- (legs_lens (proj1 W2)), HL2. unfold lens. rewrite map_app, in_range_app by (rewrite map_length; auto). unfold lens in Hb2, Hc. rewrite Hb2, Hc. reflexivity.
          -- rewrite HL2, pick_app, in_range_app by (rewrite ?pick_length; auto). rewrite Ho2, Hoc. reflexivity.
  Qed.

  Lemma tensordot_spec T1 T2 d1 d2 : valid T1 -> valid T2 -> compatible T1 T2 d1 d2 -> 0 < b_rank T1 -> 0 < b_rank T2 ->
    (forall s, In s (b_sbd T1 ++ b_sbd T2) -> s <= imax) ->
    exists T, tensordot imax T1 T2 d1 d2 = Ok T /\ valid T /\ tdot_meta T1 T2 d1 d2 T /\
      forall D1 D2, dense_form T1 D1 -> dense_form T2 D2 -> dense_form T (d_tdot D1 D2 d1 d2).
  Proof. intros h1 h2 h3 h4 h5 h6. destruct (tensordot_full h1 h2 h3 h4 h5 h6) as (T & c1 & c2 & c3 & _ & c4). eauto. Qed.

  (** *** Rejected arguments *)
  Lemma rfold_unit A (f : unit -> A -> result unit) l e : (forall a, In a l -> f tt a = Ok tt \/ f tt a = Throw e) ->
    (rfold f l tt = Ok tt /\ forall a, In a l -> f tt a = Ok tt) \/ rfold f l tt = Throw e.
  Proof.
    induction l as [|a l IH]; intros H; [left; split; [reflexivity|intros ? []]|]. cbn [rfold].
    destruct (H a (or_introl eq_refl)) as [E|E]; rewrite E; cbn [rbind]; auto.
    destruct IH as [[H1 H2]|H1]; [intros x Hx; apply H; right; auto| |right; auto]. left. split; auto. intros x [<-|Hx]; auto.
  Qed.
  Lemma tensordot_rejects T1 T2 d1 d2 : meta_ok T1 -> meta_ok T2 -> (forall k, In k d1 -> k < b_rank T1) -> (forall k, In k d2 -> k < b_rank T2) ->
    ~ linkable T1 T2 d1 d2 -> tensordot imax T1 T2 d1 d2 = Throw TorchError.
  Proof.
    intros M1 M2 H1 H2 HN. unfold tensordot. replace (compute_tdot_shape T1 T2 d1 d2) with (@Throw (list nat * list nat * list nat) TorchError); [reflexivity|].
    symmetry. unfold compute_tdot_shape. destruct (Nat.eqb_spec (length d1) (length d2)) as [HL|]; [cbn [negb]|reflexivity].
    unfold check_product_compat. match goal with |- context [rfold ?f ?l tt] => destruct (@rfold_unit _ f l TorchError) as [[E HA]|E] end.
    - intros [i j] Hij. destruct (In_nth _ _ (0, 0) Hij) as [t [Ht E]]. rewrite combine_length, <- HL, Nat.min_id in Ht.
      rewrite combine_nth in E by auto. injection E as <- <-.
      rewrite (rnth_Ok 0) by (rewrite (proj1 M1); apply H1, nth_In; auto). cbn [rbind].
      rewrite (rnth_Ok 0) by (rewrite (proj1 M2); apply H2, nth_In; lia). cbn [rbind].
      destruct (negb _); auto. destruct (forallb _ _); auto.
    - rewrite E. cbn [rbind]. destruct (bitset_ok d1 (b_rank T1) && bitset_ok d2 (b_rank T2)) eqn:EB; [|reflexivity]. exfalso. apply HN.
      apply andb_true_iff in EB as [B1 B2]. apply andb_true_iff in B1 as [B1 _]. apply andb_true_iff in B2 as [B2 _].
      split; auto. split; [apply distinct_spec; auto|]. split; [apply distinct_spec; auto|]. intros t Ht.
      specialize (HA (nth t d1 0, nth t d2 0)). cbn beta iota in HA.
      assert (I1 : nth t d1 0 < b_rank T1) by (apply H1, nth_In; auto). assert (I2 : nth t d2 0 < b_rank T2) by (apply H2, nth_In; lia).
      assert (Hin : In (nth t d1 0, nth t d2 0) (combine d1 d2)).
      { rewrite <- combine_nth by auto. apply nth_In. rewrite combine_length. lia. }
      specialize (HA Hin). set (i := nth t d1 0) in *. set (j := nth t d2 0) in *.
      rewrite (rnth_Ok 0) in HA by (rewrite (proj1 M1); auto). cbn [rbind] in HA. rewrite (rnth_Ok 0) in HA by (rewrite (proj1 M2); auto). cbn [rbind] in HA.
      assert (S1 : nth i (b_sbd T1) 0 = length (nth i (legs T1) [])).
      { rewrite <- (legs_lens M1). unfold lens. change 0 with (length (@nil nat)). apply map_nth. }
      assert (S2 : nth j (b_sbd T2) 0 = length (nth j (legs T2) [])).
      { rewrite <- (legs_lens M2). unfold lens. change 0 with (length (@nil nat)). apply map_nth. }
      assert (Q1 : nth i (b_sbd T1) 0 = length (nth i (qlegs T1) [])).
      { rewrite <- (qlegs_lens M1). unfold lens. change 0 with (length (@nil G)). apply map_nth. }
      assert (Q2 : nth j (b_sbd T2) 0 = length (nth j (qlegs T2) [])).
      { rewrite <- (qlegs_lens M2). unfold lens. change 0 with (length (@nil G)). apply map_nth. }
      destruct (Nat.eqb_spec (nth i (b_sbd T1) 0) (nth j (b_sbd T2) 0)) as [ES|]; [cbn [negb] in HA|discriminate]. split; [congruence|].
      rewrite !prange_unpack in HA by (rewrite ?(proj1 M1), ?(proj1 M2); auto). fold (qlegs T1) in HA. fold (qlegs T2) in HA.
      destruct (forallb _ _) eqn:EF in HA; [|discriminate]. intros s Hs. rewrite forallb_forall in EF.
      assert (Hl : length (nth i (qlegs T1) []) = length (nth j (qlegs T2) [])) by congruence.
      specialize (EF (nth s (nth i (qlegs T1) []) (qe G), nth s (nth j (qlegs T2) []) (qe G))). apply qeqb_spec. apply EF.
      rewrite <- combine_nth by auto. apply nth_In. rewrite combine_length. lia.
    - rewrite E. reflexivity.
  Qed.

  (** *** A rank zero first operand: the outer loop never advances *)
  Lemma scalar_loop out t l2 n fuel cap : sorted lexb l2 -> keys_ok imax n l2 -> 0 < n -> 0 < cap ->
    @outer_loop G R imax 0 out fuel cap [([], t)] l2 [] = UB.
  Proof.
    intros HS HK Hn Hc. induction fuel as [|fuel IH]; cbn [outer_loop length].
    - destruct (Nat.leb_spec cap 0); [lia|]. reflexivity.
    - destruct (Nat.leb_spec cap 0); [lia|]. cbn [next_index lower_bound fst lexb firstn skipn].
      destruct (@inner_spec G R imax 0 out n (Datatypes.S (length l2)) (length l2 + cap + 1) [] [] l2 []) as [new [I1 [_ [_ [I2 _]]]]]; auto; try lia; [constructor|cbn; lia| |].
      { intros e2 _ HX. exfalso. apply HX. reflexivity. }
      assert (new = []) as ->. { destruct new as [|[k b] new]; auto. destruct (I2 k b (or_introl eq_refl)) as [e2 [_ [_ [HX _]]]]. exfalso. apply HX. reflexivity. }
      assert (Hle : cap <= length l2 + cap + 1) by lia. assert (H0 : length (@nil entry ++ []) <= cap) by (cbn; lia).
      rewrite (@inner_cap G R imax 0 out _ _ _ _ _ _ _ _ Hle I1 H0). cbn [rbind app]. exact IH.
  Qed.
  Lemma tensordot_scalar T1 T2 : valid T1 -> valid T2 -> b_rank T1 = 0 -> b_blocks T1 <> [] -> 0 < b_rank T2 ->
    (forall s, In s (b_sbd T2) -> s <= imax) -> tensordot imax T1 T2 [] [] = UB.
  Proof.
    intros V1 V2 R1 B1 R2 HI. pose proof V1 as [M1 [BO1 _]]. pose proof V2 as [M2 _].
    assert (HC : compatible T1 T2 [] []). { repeat split; auto using NoDup_nil; try (intros k []); cbn in *; lia. }
    pose proof HC as (C1 & C2 & C3 & C4 & C5 & C6).
    pose proof (free_perm C2 C4) as P1. pose proof (perm_app_comm _ _ (free_perm C3 C5)) as P2. pose proof (free_perm C3 C5) as P2'.
    destruct (@permute_bl_spec T1 _ _ (b_rank T1 - length (@nil nat)) V1 P1 P1) as (t1 & X1 & X2 & X3 & X4).
    { intros s Hs. exfalso. assert (b_sbd T1 = []) as E by (apply length_zero_iff_nil; rewrite (proj1 M1); auto). rewrite E in Hs. destruct Hs. }
    destruct (@permute_bl_spec T2 _ _ (length (@nil nat)) V2 P2' P2 HI) as (t2 & Y1 & Y2 & Y3 & Y4).
    unfold tensordot. rewrite (shape_ok M1 M2 HC). cbn [rbind]. rewrite X1. cbn [rbind].
    replace (skipn (length (@nil nat)) ([] ++ free (b_rank T2) [])) with (free (b_rank T2) []) by reflexivity.
    replace (firstn (length (@nil nat)) ([] ++ free (b_rank T2) [])) with (@nil nat) by reflexivity. rewrite Y1. cbn [rbind].
    set (F2 := gather [] (free (b_rank T2) []) (legs T2)). set (Q2 := gather [] (free (b_rank T2) []) (qlegs T2)).
    assert (SB2 : gather 0 (free (b_rank T2) []) (b_sbd T2) = lens F2). { unfold F2, lens. rewrite map_gather. cbn [length]. f_equal. symmetry. apply (legs_lens M2). }
    assert (SQ2 : lens Q2 = lens F2). { rewrite <- SB2. unfold Q2, lens. rewrite map_gather. cbn [length]. f_equal. apply (qlegs_lens M2). }
    destruct (@from_legs (qop G (b_rule T1) (b_rule T2)) (length F2) F2 Q2 eq_refl SQ2) as [MO [LO [LQO VO]]].
    set (out := @mkB G R (qop G (b_rule T1) (b_rule T2)) (length F2) (lens F2) (concat F2) (concat Q2) []) in *.
    replace (@mkB G R _ _ _ _ _ []) with out.
    - rewrite (valid_make VO). cbn [rbind length].
      assert (Ht1 : exists t, t1 = [([], t)]).
      { destruct t1 as [|[k t] r].
        - destruct (b_blocks T1) as [|[k t] r] eqn:E; [congruence|]. exfalso.
          destruct (BO1 k t) as [[Hr _] _]; [rewrite E; left; auto|]. apply in_range_length in Hr. rewrite (proj1 M1), R1 in Hr. apply length_zero_iff_nil in Hr. subst k.
          specialize (X4 [] (eq_sym R1)). rewrite ?E in X4. cbn [assoc fst leqb option_map] in X4. discriminate.
        - destruct (X3 (k, t) (or_introl eq_refl)) as [Hk _]. cbn [fst] in Hk. rewrite R1 in Hk. apply length_zero_iff_nil in Hk. subst k. exists t. f_equal.
          destruct r as [|[k t'] r]; auto. exfalso. destruct (X3 (k, t') (or_intror (or_introl eq_refl))) as [Hk _]. cbn [fst] in Hk. rewrite R1 in Hk.
          apply length_zero_iff_nil in Hk. subst k. apply (sorted_cons _) in X2 as [X2 _]. specialize (X2 ([], t') (or_introl eq_refl)). discriminate. }
      destruct Ht1 as [t ->]. rewrite (@scalar_loop out t t2 (b_rank T2)); auto. lia.
    - unfold out, tdot_packed. rewrite R1. cbn [length Nat.sub free seq filter app firstn skipn flat_map].
      assert (I2 : forall k, In k (free (b_rank T2) []) -> k < b_rank T2) by (intros k Hk; apply free_In in Hk; apply Hk).
      change (filter (fun i => negb (existsb (Nat.eqb i) [])) (seq 0 (b_rank T2))) with (free (b_rank T2) []).
      rewrite !gather_prange by auto. fold (legs T2) (qlegs T2). fold F2 Q2. rewrite SB2. cbn. unfold lens. rewrite map_length. reflexivity.
  Qed.
End Final.
