(** The edges of chains of block tensors. *)
From Verif Require Import Base Quantity QuantityProofs FlatMap SpecFlatMap FlatMapProofs Ring Index SpecIndex Dense IndexProofs BTensor SpecBTensor LegsProofs
  BTensorProofs BTensorThms BTensorThms2 BTensorArith Tensordot SpecTensordot TensordotProofs TensordotThms SpecReshape View SpecView ViewProofs ViewThms
  Chain SpecChain ChainProofs ChainThms ChainInst ChainEnd Edges SpecEdges EdgesProofs.
Set Implicit Arguments.

Lemma free_nil n : free n [] = seq 0 n.
Proof. unfold free. induction (seq 0 n) as [|x l IH]; cbn; [reflexivity|]. f_equal. exact IH. Qed.
Lemma gather_seq A (d : A) l : gather d (seq 0 (length l)) l = l.
Proof.
  apply nth_ext' with (d := d); [unfold gather; rewrite map_length, seq_length; reflexivity|]. unfold gather. rewrite map_length, seq_length. intros i Hi.
  rewrite (nth_indep _ d (nth 0 l d)) by (rewrite map_length, seq_length; exact Hi). rewrite (map_nth (fun k => nth k l d)), seq_nth by exact Hi. reflexivity.
Qed.

Section B.
  Variable G : abgroup.
  Variable R : ring.
  Variable imax : nat.
  Add Ring Rring : (ring_th R).
  Notation bt := (btensor G R).
  Notation leg := (list nat * list G)%type.
  Notation tl := (@blegs G R).
  Notation dual := (@bdual G).
  Notation den := (@stored G R imax).

  Lemma product_shape_ok (T1 T2 : bt) : meta_ok T1 -> meta_ok T2 ->
    exists S, tensor_product_shape T1 T2 = Ok S /\ shape_is S (legs T1 ++ legs T2) (qlegs T1 ++ qlegs T2) (qop G (b_rule T1) (b_rule T2)).
  Proof.
    intros M1 M2. unfold tensor_product_shape. rewrite shape_ok; auto.
    2: { split; [reflexivity|]. split; [constructor|]. split; [constructor|]. split; [intros k []|]. split; [intros k []|]. cbn. intros j Hj. lia. }
    cbn [rbind]. rewrite !free_nil. unfold tdot_packed. rewrite app_nil_r. cbn [app].
    rewrite Nat.sub_0_r, firstn_all. cbn [skipn].
    rewrite !gather_prange by (auto; intros k Hk; apply in_seq in Hk; lia).
    fold (legs T1) (legs T2) (qlegs T1) (qlegs T2).
    assert (L1 : gather [] (seq 0 (b_rank T1)) (legs T1) = legs T1) by (rewrite <- (legs_length M1); apply gather_seq).
    assert (L2 : gather [] (seq 0 (b_rank T2)) (legs T2) = legs T2) by (rewrite <- (legs_length M2); apply gather_seq).
    assert (Q1 : gather [] (seq 0 (b_rank T1)) (qlegs T1) = qlegs T1) by (rewrite <- (qlegs_length M1); apply gather_seq).
    assert (Q2 : gather [] (seq 0 (b_rank T2)) (qlegs T2) = qlegs T2) by (rewrite <- (qlegs_length M2); apply gather_seq).
    assert (E1 : gather 0 (seq 0 (b_rank T1)) (b_sbd T1) = lens (legs T1)).
    { rewrite <- (proj1 M1), gather_seq. symmetry. apply (legs_lens M1). }
    assert (E2 : gather 0 (seq 0 (b_rank T2)) (b_sbd T2) = lens (legs T2)).
    { rewrite <- (proj1 M2), gather_seq. symmetry. apply (legs_lens M2). }
    rewrite E1, E2, L1, L2, Q1, Q2.
    replace (lens (legs T1) ++ lens (legs T2)) with (lens (legs T1 ++ legs T2)) by apply map_app. rewrite <- !concat_app.
    destruct (@from_legs G R (qop G (b_rule T1) (b_rule T2)) (length (legs T1 ++ legs T2)) (legs T1 ++ legs T2) (qlegs T1 ++ qlegs T2) eq_refl) as (MM & LL & QQ & VV).
    { unfold lens. rewrite !map_app. f_equal; [exact (eq_trans (qlegs_lens M1) (eq_sym (legs_lens M1)))|exact (eq_trans (qlegs_lens M2) (eq_sym (legs_lens M2)))]. }
    replace (length (lens (legs T1 ++ legs T2))) with (length (legs T1 ++ legs T2)) by (symmetry; apply map_length).
    eexists. split; [apply valid_make; exact VV|]. split; [exact VV|]. split; [reflexivity|]. split; [exact LL|]. split; [exact QQ|reflexivity].
  Qed.
  Lemma shape_list2 (T1 T2 : bt) : meta_ok T1 -> meta_ok T2 ->
    exists S, shape_from_list [T1; T2] = Ok S /\ shape_is S (legs T1 ++ legs T2) (qlegs T1 ++ qlegs T2) (qop G (b_rule T1) (b_rule T2)).
  Proof.
    intros M1 M2. cbn [shape_from_list rfold]. destruct (@product_shape_ok (sparse_zeros_like T1) T2 M1 M2) as (S & E & H). rewrite E. cbn [rbind]. exists S. split; [reflexivity|exact H].
  Qed.
  Lemma shape_list_ok (l : list bt) : l <> [] -> Forall (@meta_ok G R) l ->
    exists S, shape_from_list l = Ok S /\ shape_is S (concat (map (@legs G R) l)) (concat (map (@qlegs G R) l)) (qprod G (map (@b_rule G R) l)).
  Proof.
    destruct l as [|T l]; [congruence|]. intros _ H. inversion H as [|? ? HT HL]; subst. clear H. cbn [shape_from_list].
    assert (H0 : meta_ok (sparse_zeros_like T)) by exact HT.
    assert (H : forall l (P : bt), meta_ok P -> valid P -> b_blocks P = [] -> Forall (@meta_ok G R) l -> exists S, rfold (@tensor_product_shape G R) l P = Ok S /\
      shape_is S (legs P ++ concat (map (@legs G R) l)) (qlegs P ++ concat (map (@qlegs G R) l)) (qop G (b_rule P) (qprod G (map (@b_rule G R) l)))).
    { clear. induction l as [|T l IH]; intros P MP VP BP HL; cbn [rfold].
      - exists P. split; [reflexivity|]. cbn. rewrite !app_nil_r, qop_e_r. split; [exact VP|]. auto.
      - inversion HL as [|? ? HT HL']; subst. destruct (@product_shape_ok P T MP HT) as (S & E & (V & B & L & Q & R0)). rewrite E. cbn [rbind].
        destruct (IH S (proj1 V) V B HL') as (S' & E' & H'). exists S'. split; [exact E'|]. rewrite L, Q, R0 in H'. cbn. rewrite !app_assoc. rewrite qop_assoc. exact H'. }
    destruct (H l (sparse_zeros_like T) H0) as (S & E & HS); [|reflexivity|exact HL|].
    { split; [exact H0|]. split; [intros k t0 []|constructor]. }
    exists S. split; [exact E|]. exact HS.
  Qed.
  Lemma shape_is_meta (S : bt) L Q r : shape_is S L Q r -> meta_ok S. Proof. intros (V & _). apply V. Qed.
  Lemma inverse_shape (S : bt) L Q r : shape_is S L Q r -> shape_is (inverse_cvals S) L (map (map (qinv G)) Q) (qinv G r).
  Proof.
    intros (V & B & E1 & E2 & E3). split; [apply inverse_valid; exact V|]. split; [exact B|]. split; [exact E1|]. split; [|cbn; congruence].
    unfold qlegs. cbn [b_sbd b_cv inverse_cvals]. rewrite unpack_map. fold (qlegs S). rewrite E2. reflexivity.
  Qed.
  Lemma rule_shape (S : bt) L Q r r' : shape_is S L Q r -> shape_is (with_rule S r') L Q r'.
  Proof.
    intros (V & B & E1 & E2 & E3). split; [|split; [exact B|split; [exact E1|split; [exact E2|reflexivity]]]].
    destruct V as (M & _ & _). split; [exact M|]. split; [intros idx t0 Hi; cbn in Hi; rewrite B in Hi; destruct Hi|cbn; rewrite B; constructor].
  Qed.
  Lemma view_shape_ok (T : bt) p r : meta_ok T -> nonempty T -> edge_rule p T r ->
    exists S, shape_from T (zpat p) = Ok S /\ shape_is S (keep p (legs T)) (keep p (qlegs T)) r.
  Proof.
    intros M N (bp & op & HR & Hr). destruct (@shape_from_spec G R T p M) as (S & E & V & B & (E1 & E2 & _ & E3)).
    - eapply resolves_ok; eauto.
    - intros n Hn. rewrite <- (legs_lens M) in Hn. apply in_map_iff in Hn as (l & <- & Hl). specialize (N l Hl). destruct l; cbn in *; lia.
    - exists S. split; [exact E|]. split; [exact V|]. split; [exact B|]. split; [exact E1|]. split; [exact E2|].
      destruct (E3 bp op HR) as [H _]. rewrite <- Hr in H. set (c := qprod G (fixed (qe G) bp (qlegs T))) in *.
      assert (H' : qop G (qop G (b_rule S) c) (qinv G c) = qop G (qop G r c) (qinv G c)) by (rewrite H; reflexivity).
      rewrite <- !qop_assoc, qop_inv_r, !qop_e_r in H'. exact H'.
  Qed.

  (** Identity edges. *)
  Lemma place_2 l x y o o' : in_range (lens [l; l]) [x; y] = true -> in_range (pick 0 [l; l] [x; y]) [o; o'] = true ->
    (sum_list (firstn x l) + o =? sum_list (firstn y l) + o') = (x =? y) && (o =? o').
  Proof.
    intros H1 H2. cbn in H1, H2. rewrite !andb_true_iff, !Nat.ltb_lt in *. destruct H1 as (X & Y & _), H2 as (O & O' & _).
    destruct (x =? y) eqn:E; [apply Nat.eqb_eq in E; subst y; cbn; destruct (o =? o') eqn:E'; [apply Nat.eqb_eq in E'; subst; apply Nat.eqb_refl|apply Nat.eqb_neq in E'; apply Nat.eqb_neq; lia]|].
    apply Nat.eqb_neq in E. apply Nat.eqb_neq. intros H. cbn.
    assert (L1 : located l (sum_list (firstn x l) + o) x o) by (repeat split; auto). assert (L2 : located l (sum_list (firstn x l) + o) y o') by (repeat split; auto).
    apply find_section_unique in L1, L2. congruence.
  Qed.
  Lemma eye_ok (S : bt) (l : list nat) (qs : list G) r : shape_is S [l; l] [map (qinv G) qs; qs] r -> length qs = length l ->
    exists E, eye_like S = Ok E /\ same_meta S E /\ valid E /\ dense_form E (if qeqb G r (qe G) then d_eye (sum_list l) (sum_list l) else d_zeros [sum_list l; sum_list l]).
  Proof.
    intros (V & B & E1 & E2 & E3) HL. pose proof V as (M & _). assert (HR : b_rank S = 2) by (rewrite <- (legs_length M), E1; reflexivity).
    destruct (@eye_spec G R S M HR) as (E & EE & SM & VE & HE). exists E. split; [exact EE|]. split; [exact SM|]. split; [exact VE|].
    assert (LE : legs E = [l; l]) by (unfold legs in *; destruct SM as (_ & _ & <- & <- & _); exact E1).
    split; [rewrite LE; destruct (qeqb G r (qe G)); reflexivity|].
    intros b o Hb Ho. rewrite LE in *. rewrite <- (legs_lens (proj1 VE)), LE in Hb.
    destruct b as [|x [|y [|? ?]]]; try (cbn in Hb; rewrite ?andb_false_r in Hb; discriminate).
    destruct o as [|o [|o' [|? ?]]]; try (cbn in Ho; rewrite ?andb_false_r in Ho; discriminate).
    pose proof (@place_2 l x y o o' Hb Ho) as HP. unfold bentry.
    assert (HA : allowed S [x; x] <-> x < length l /\ r = qe G).
    { unfold allowed. rewrite <- (legs_lens M), E1, E2, E3. cbn [lens map pick in_range]. rewrite !andb_true_iff, !Nat.ltb_lt.
      split; [intros [(H & _) HQ]|intros [H HQ]]; (split; [tauto|]).
      - rewrite (nth_indep _ (qe G) (qinv G (qe G))) in HQ by (rewrite map_length; lia). rewrite (map_nth (qinv G)) in HQ. cbn in HQ.
        rewrite qop_e_r, qop_inv_l in HQ. congruence.
      - rewrite (nth_indep _ (qe G) (qinv G (qe G))) by (rewrite map_length; lia). rewrite (map_nth (qinv G)). cbn. rewrite qop_e_r, qop_inv_l. congruence. }
    cbn in Hb. rewrite !andb_true_iff, !Nat.ltb_lt in Hb.
    destruct (assoc leqb [x; y] (b_blocks E)) as [t0|] eqn:EA.
    - apply HE in EA as (i & Ei & HAi & ->). injection Ei as -> ->. apply HA in HAi as [_ ->]. rewrite (proj2 (qeqb_spec G _ _) eq_refl).
      cbn [dv d_eye place nth]. rewrite HP, Nat.eqb_refl. reflexivity.
    - destruct (qeqb G r (qe G)) eqn:EQ; [|reflexivity]. apply qeqb_spec in EQ. cbn [dv d_eye place nth]. rewrite HP. destruct (x =? y) eqn:EXY; [|reflexivity].
      exfalso. apply Nat.eqb_eq in EXY. subst y. assert (HS : assoc leqb [x; x] (b_blocks E) = Some (d_eye (nth 0 (pick 0 (legs S) [x; x]) 0) (nth 1 (pick 0 (legs S) [x; x]) 0))).
      { apply HE. exists x. split; [reflexivity|]. split; [apply HA; tauto|reflexivity]. }
      congruence.
  Qed.
  Lemma keep_blegs (T : bt) p : keep p (tl T) = combine (keep p (legs T)) (keep p (qlegs T)).
  Proof.
    unfold blegs. generalize (legs T) as L. generalize (qlegs T) as Q. intros Q L. revert L Q; induction p as [|[a|] p IH]; intros [|l L] [|q Q]; cbn; auto.
    - destruct (keep p L); reflexivity.
    - f_equal. auto.
  Qed.
  Lemma keep1 (T : bt) p k : meta_ok T -> keep p (tl T) = [k] -> pat_ok (legs T) p -> keep p (legs T) = [fst k] /\ keep p (qlegs T) = [snd k] /\ length (snd k) = length (fst k).
  Proof.
    intros M H HP. assert (HI : In k (tl T)). { assert (In k (keep p (tl T))) by (rewrite H; left; reflexivity). clear -H0. revert H0. generalize (tl T). induction p as [|[a|] p IH]; intros [|y l]; cbn; try tauto; [intros; right; auto|intros [->|?]; auto]. }
    rewrite keep_blegs in H. assert (HLk : length (keep p (legs T)) = length (keep p (qlegs T))).
    { clear -M. pose proof (legs_length M) as A. pose proof (qlegs_length M) as B. rewrite <- B in A. clear B. revert A. generalize (legs T) (qlegs T). induction p as [|[a|] p IH]; intros [|x L] [|y Q] A; try discriminate; cbn in *; auto. }
    destruct (keep p (legs T)) as [|l [|? ?]], (keep p (qlegs T)) as [|q0 [|? ?]]; try discriminate. injection H as <-. cbn. split; [reflexivity|]. split; [reflexivity|].
    unfold blegs in HI. apply (In_nth _ _ ([], [])) in HI as (i & Hi & E). rewrite combine_length in Hi. rewrite combine_nth in E by (rewrite (legs_length M), (qlegs_length M); reflexivity).
    injection E as <- <-. pose proof (legs_lens M) as NL. pose proof (qlegs_lens M) as NQ. rewrite <- NL in NQ. unfold lens in NQ.
    change 0 with (length (@nil G)). rewrite <- (map_nth (@length G)), NQ. change (length (@nil G)) with (length (@nil nat)). rewrite map_nth. reflexivity.
  Qed.
  Lemma identity_edge_ok (A B : bt) p k r r' : valid A -> valid B -> nonempty A -> nonempty B -> keep p (tl A) = [k] -> keep p (tl B) = [k] ->
    edge_rule p A r -> edge_rule p B r' -> length (fst k) <= imax ->
    exists E, identity_edge A B (zpat p) = Ok E /\ tl E = [dual k; k] /\ den E (d_when (qeqb G r r') (d_eye (@bsz G k) (@bsz G k))).
  Proof.
    intros VA VB NA NB KA KB RA RB HI. unfold identity_edge.
    destruct (view_shape_ok (proj1 VA) NA RA) as (SA & EA & HA). destruct (view_shape_ok (proj1 VB) NB RB) as (SB & EB & HB).
    assert (PA : pat_ok (legs A) p) by (destruct RA as (? & ? & ? & _); eapply resolves_ok; eauto).
    assert (PB : pat_ok (legs B) p) by (destruct RB as (? & ? & ? & _); eapply resolves_ok; eauto).
    destruct (@keep1 A p k (proj1 VA) KA PA) as (LA & QA & HL). destruct (@keep1 B p k (proj1 VB) KB PB) as (LB & QB & _).
    rewrite LA, QA in HA. rewrite LB, QB in HB. rewrite EA, EB. cbn [rbind].
    apply inverse_shape in HA. destruct (@shape_list2 (inverse_cvals SA) SB (shape_is_meta HA) (shape_is_meta HB)) as (S & ES & HS). rewrite ES. cbn [rbind].
    assert (HS' : shape_is S [fst k; fst k] [map (qinv G) (snd k); snd k] (qop G (qinv G r) r')).
    { destruct HA as (_ & _ & a1 & a2 & a3), HB as (_ & _ & b1 & b2 & b3). rewrite a1, a2, a3, b1, b2, b3 in HS. exact HS. }
    destruct (eye_ok HS' HL) as (E & EE & SM & VE & DE). exists E. split; [exact EE|].
    destruct HS' as (_ & _ & l1 & l2 & _). destruct SM as (_ & _ & s3 & s4 & s5).
    assert (le : legs E = [fst k; fst k]) by (unfold legs in *; rewrite <- s3, <- s4; exact l1).
    assert (qe' : qlegs E = [map (qinv G) (snd k); snd k]) by (unfold qlegs in *; rewrite <- s3, <- s5; exact l2).
    split; [unfold blegs; rewrite le, qe'; destruct k; reflexivity|]. split; [exact VE|]. split.
    - unfold d_when, bsz. replace (qeqb G r r') with (qeqb G (qop G (qinv G r) r') (qe G)); [destruct (qeqb G (qop G (qinv G r) r') (qe G)); exact DE|].
      apply eq_true_iff_eq. rewrite !qeqb_spec. split; [intros H|intros ->; apply qop_inv_l].
      rewrite <- (qop_e_l G r'), <- (qop_inv_r G r), <- qop_assoc. rewrite H. symmetry. apply qop_e_r.
    - intros s Hs. rewrite <- (legs_lens (proj1 VE)), le in Hs. cbn in Hs. destruct Hs as [<-|[<-|[]]]; exact HI.
  Qed.

  (** Edges of ones. *)
  Lemma shape_ones (S : bt) L (Q : list (list G)) r c : shape_is S L Q r -> (forall l, In l L -> 0 < length l) ->
    (forall b, in_range (lens L) b = true -> qprod G (pick (qe G) Q b) = c) ->
    exists E, full_like S ro = Ok E /\ same_meta S E /\ valid E /\ dense_form E (d_when (qeqb G c r) (d_full (tots L) ro)).
  Proof.
    intros (V & B & E1 & E2 & E3) H0 HC. pose proof V as (M & _).
    destruct (@full_exact G R S (fun _ sh => d_full sh ro) M) as (E & EE & SM & VE & HE); [|reflexivity|].
    { intros n. rewrite <- (legs_lens M), E1. intros Hn. apply in_map_iff in Hn as (l & <- & Hl). auto. }
    exists E. split; [exact EE|]. split; [exact SM|]. split; [exact VE|].
    assert (LE : legs E = L) by (unfold legs in *; destruct SM as (_ & _ & <- & <- & _); exact E1).
    split; [rewrite LE; unfold d_when; destruct (qeqb G c r); reflexivity|].
    intros b o Hb Ho. rewrite LE in *. rewrite <- (legs_lens (proj1 VE)), LE in Hb.
    assert (HA : allowed S b <-> c = r).
    { unfold allowed. rewrite <- (legs_lens M), E1, E2, E3, (HC b Hb), Hb. tauto. }
    unfold bentry. destruct (assoc leqb b (b_blocks E)) as [t0|] eqn:EA.
    - apply HE in EA as (HAx & ->). apply HA in HAx as ->. unfold d_when. rewrite (proj2 (qeqb_spec G _ _) eq_refl). reflexivity.
    - unfold d_when. destruct (qeqb G c r) eqn:EQ; [|reflexivity]. apply qeqb_spec in EQ. exfalso.
      assert (HS : assoc leqb b (b_blocks E) = Some (d_full (pick 0 (legs S) b) ro)) by (apply HE; split; [apply HA; exact EQ|reflexivity]). congruence.
  Qed.
  Lemma pick_uniform c x (qs : list G) n : Forall (fun y => y = c) qs -> length qs = n -> x < n -> nth x qs (qe G) = c.
  Proof. intros H <- Hx. rewrite Forall_forall in H. apply H, nth_In, Hx. Qed.
  Lemma uniform_inv (qs : list G) c : Forall (fun x => x = c) qs -> Forall (fun x => x = qinv G c) (map (qinv G) qs).
  Proof. intros H. apply Forall_map. eapply Forall_impl; [|exact H]. cbn. intros; congruence. Qed.
  Definition one_pat n d : pattern := upd (repeat (Some 0) n) d None.
  Lemma one_zpat n d : zpat (one_pat n d) = upd (repeat 0%Z n) d (-1)%Z.
  Proof.
    unfold one_pat, upd, zpat. rewrite map_app. cbn [map]. rewrite firstn_map, skipn_map || idtac.
    f_equal; [|f_equal]; [generalize d; induction n as [|n IH]; intros [|e]; cbn; auto; f_equal; apply IH|].
    generalize (S d). induction n as [|n IH]; intros [|e]; cbn; auto. f_equal. exact (IH 0).
  Qed.
  Lemma one_pat_S n d : one_pat (S n) (S d) = Some 0 :: one_pat n d. Proof. reflexivity. Qed.
  Lemma one_pat_0 n : one_pat (S n) 0 = None :: repeat (Some 0) n. Proof. reflexivity. Qed.
  Lemma keep_none A n (l : list A) : keep (repeat (Some 0) n) l = [].
  Proof. revert l; induction n as [|n IH]; intros [|x l]; cbn; auto. Qed.
  Lemma keep_one A (d0 : A) (l : list A) : forall d, d < length l -> keep (one_pat (length l) d) l = [nth d l d0].
  Proof.
    induction l as [|x l IH]; intros d H; [cbn in H; lia|]. destruct d as [|d]; cbn [length].
    - rewrite one_pat_0. cbn. rewrite keep_none. reflexivity.
    - rewrite one_pat_S. cbn. apply IH. cbn in H. lia.
  Qed.
  Lemma one_pat_ok (L : list (list nat)) : (forall l, In l L -> 0 < sum_list l) -> forall d, d < length L -> pat_ok L (one_pat (length L) d).
  Proof.
    induction L as [|l L IH]; intros H d Hd; [cbn in Hd; lia|]. destruct d as [|d]; cbn [length].
    - rewrite one_pat_0. cbn. clear IH Hd. assert (H' : forall l, In l L -> 0 < sum_list l) by (intros; apply H; right; auto). clear H. induction L as [|m L IH]; cbn; auto.
      split; [apply H'; left; reflexivity|]. apply IH. intros; apply H'; right; auto.
    - rewrite one_pat_S. cbn. split; [apply H; left; reflexivity|]. apply IH; [intros; apply H; right; auto|cbn in Hd; lia].
  Qed.
  Lemma rule_unique (a r c : G) : qop G a c = r -> a = qop G r (qinv G c).
  Proof. intros <-. rewrite <- qop_assoc, qop_inv_r, qop_e_r. reflexivity. Qed.
  Lemma inv_e : qinv G (qe G) = qe G. Proof. rewrite <- (qop_e_l G (qinv G (qe G))). apply qop_inv_r. Qed.
  Lemma rule_exists (T : bt) p : meta_ok T -> pat_ok (legs T) p -> exists r, edge_rule p T r.
  Proof.
    intros M H. exists (qop G (b_rule T) (qinv G (qprod G (fixed (qe G) (bpat (legs T) p) (qlegs T))))). eexists _, _. split; [apply pat_ok_resolves; exact H|].
    rewrite <- qop_assoc, qop_inv_l, qop_e_r. reflexivity.
  Qed.
  Variable last_first : bool.
  Notation order_ok := (order_ok last_first).
  Lemma edge_prep_ok (A : bt) d k c : valid A -> nonempty A -> d < length (tl A) -> nth d (tl A) ([], []) = k -> Forall (fun x => x = c) (snd k) ->
    exists S, edge_shape_prep last_first A d = Ok S /\ shape_is S [fst k] [map (qinv G) (snd k)] (if last_first then qinv G c else c) /\ length (snd k) = length (fst k) /\ 0 < sum_list (fst k).
  Proof.
    intros V N Hd Hk HC. pose proof V as (M & _). pose proof (blegs_length M) as HBL. pose proof (legs_length M) as HLL.
    assert (HP : pat_ok (legs A) (one_pat (b_rank A) d)) by (rewrite <- HLL; apply one_pat_ok; [exact N|rewrite HLL; lia]).
    destruct (@rule_exists A _ M HP) as (r & HR). destruct (view_shape_ok M N HR) as (S & ES & HS).
    assert (HK : keep (one_pat (b_rank A) d) (tl A) = [k]) by (rewrite <- HBL, (keep_one ([], [])) by exact Hd; rewrite Hk; reflexivity).
    destruct (@keep1 A _ _ M HK HP) as (K1 & K2 & K3). rewrite K1, K2 in HS.
    assert (Hpos : 0 < sum_list (fst k)).
    { apply N. rewrite <- (blegs_fst M). apply in_map. rewrite <- Hk. apply nth_In. exact Hd. }
    unfold edge_shape_prep. rewrite (proj2 (Nat.leb_gt _ _)) by lia. rewrite <- one_zpat, ES. cbn [rbind].
    pose proof (@rule_shape S _ _ _ (qe G) HS) as HS2; clear HS; rename HS2 into HS. set (T := with_rule S (qe G)) in *.
    assert (HT : exists qs c', shape_is (if last_first then T else inverse_cvals T) [fst k] [qs] (qe G) /\ Forall (fun x => x = c') qs /\ length qs = length (fst k) /\ c' = if last_first then c else qinv G c).
    { destruct last_first; [exists (snd k), c; auto|]. exists (map (qinv G) (snd k)), (qinv G c). split; [apply inverse_shape in HS; destruct HS as (h1 & h2 & h3 & h4 & h5); split; [exact h1|split; [exact h2|split; [exact h3|split; [exact h4|rewrite h5; apply inv_e]]]]|].
      split; [apply Forall_map; eapply Forall_impl; [|exact HC]; cbn; intros; congruence|]. split; [rewrite map_length; exact K3|reflexivity]. }
    destruct HT as (qs & c' & HT & HQ & HLq & Hc'). set (T' := if last_first then T else inverse_cvals T) in *.
    destruct HT as (VT & BT & LT & QT & RT).
    assert (HE : edge_rule [Some 0] T' (qinv G c')).
    { pose proof (find_section_spec (fst k) Hpos) as HF. exists [Some (fst (find_section (fst k) 0))], [Some (snd (find_section (fst k) 0))]. split; [rewrite LT; cbn; split; [exact HF|exact I]|].
      rewrite QT, RT. cbn. rewrite qop_e_r. replace (nth (fst (find_section (fst k) 0)) qs (qe G)) with c'; [apply qop_inv_l|]. symmetry. rewrite Forall_forall in HQ. apply HQ, nth_In. rewrite HLq. apply HF. }
    assert (NT : nonempty T') by (intros l Hl; rewrite LT in Hl; destruct Hl as [<-|[]]; exact Hpos).
    destruct (view_shape_ok (proj1 VT) NT HE) as (S' & ES' & HS'). change [0%Z] with (zpat [Some 0]). rewrite ES'. cbn [rbind].
    rewrite LT, QT in HS'. cbn [keep] in HS'. apply inverse_shape in HS.
    destruct (shape_list2 (shape_is_meta HS) (shape_is_meta HS')) as (F & EF & HF). exists F. split; [exact EF|]. split; [|split; [exact K3|exact Hpos]].
    destruct HS as (_ & _ & a1 & a2 & a3), HS' as (_ & _ & b1 & b2 & b3). rewrite a1, a2, a3, b1, b2, b3 in HF. cbn in HF.
    destruct HF as (f1 & f2 & f3 & f4 & f5). split; [exact f1|]. split; [exact f2|]. split; [exact f3|]. split; [exact f4|]. rewrite f5, Hc'.
    assert (H : qinv G (qe G) = qe G) by apply inv_e.
    rewrite H, qop_e_l. destruct last_first; [reflexivity|apply qinv_inv].
  Qed.
  Lemma shape_stored (S E : bt) L Q r D : shape_is S L Q r -> same_meta S E -> valid E -> dense_form E D -> (forall l, In l L -> length l <= imax) ->
    tl E = combine L Q /\ den E D.
  Proof.
    intros (_ & _ & l1 & l2 & _) (_ & _ & s3 & s4 & s5) VE DE HI.
    assert (le : legs E = L) by (unfold legs in *; rewrite <- s3, <- s4; exact l1).
    assert (qe' : qlegs E = Q) by (unfold qlegs in *; rewrite <- s3, <- s5; exact l2).
    split; [unfold blegs; rewrite le, qe'; reflexivity|]. split; [exact VE|]. split; [exact DE|].
    intros s Hs. rewrite <- (legs_lens (proj1 VE)), le in Hs. apply in_map_iff in Hs as (l & <- & Hl). auto.
  Qed.
  Lemma order_rule c : qeqb G (qinv G c) (if last_first then qinv G c else c) = order_ok c.
  Proof.
    unfold order_ok. apply eq_true_iff_eq. rewrite orb_true_iff, !qeqb_spec. destruct last_first; [tauto|]. split; [intros H; right; congruence|intros [H|H]; congruence].
  Qed.
  Lemma edge_ones_ok (A : bt) d k c : valid A -> nonempty A -> d < length (tl A) -> nth d (tl A) ([], []) = k -> Forall (fun x => x = c) (snd k) -> length (fst k) <= imax ->
    exists S E, edge_shape_prep last_first A d = Ok S /\ full_like S ro = Ok E /\ tl E = [dual k] /\ den E (d_when (order_ok c) (d_full [@bsz G k] ro)).
  Proof.
    intros V N Hd Hk HC HI. destruct (@edge_prep_ok A d k c V N Hd Hk HC) as (S & ES & HS & HL & Hp). exists S.
    destruct (@shape_ones S _ _ _ (qinv G c) HS) as (E & EE & SM & VE & DE).
    - intros l [<-|[]]. destruct (fst k); cbn in *; lia.
    - intros b Hb. destruct b as [|x [|? ?]]; cbn in Hb; rewrite ?andb_false_r in Hb; try discriminate. rewrite andb_true_iff, Nat.ltb_lt in Hb. cbn. rewrite qop_e_r.
      apply pick_uniform with (length (fst k)); [apply uniform_inv; exact HC|rewrite map_length; exact HL|tauto].
    - rewrite order_rule in DE. exists E. split; [exact ES|]. split; [exact EE|]. apply (shape_stored HS SM VE DE). intros l [<-|[]]. exact HI.
  Qed.
  (** The edge of [generate_env]. *)
  Lemma env_edge_ok (A H : bt) ds dh k kh c ch : valid A -> nonempty A -> ds < length (tl A) -> nth ds (tl A) ([], []) = k -> Forall (fun x => x = c) (snd k) -> length (fst k) <= imax ->
    valid H -> nonempty H -> dh < length (tl H) -> nth dh (tl H) ([], []) = kh -> Forall (fun x => x = ch) (snd kh) -> length (fst kh) <= imax ->
    exists E, b_env_edge last_first A H ds dh = Ok E /\ tl E = [dual k; dual kh; k] /\ den E (d_when (order_ok ch) (d_full [@bsz G k; @bsz G kh; @bsz G k] ro)).
  Proof.
    intros V N Hd Hk HC HI V' N' Hd' Hk' HC' HI'.
    destruct (@edge_prep_ok A ds k c V N Hd Hk HC) as (S & ES & HS & HL & Hp). destruct (@edge_prep_ok H dh kh ch V' N' Hd' Hk' HC') as (S' & ES' & HS' & HL' & Hp').
    unfold b_env_edge. rewrite ES, ES'. cbn [rbind]. cbn [shape_from_list rfold].
    pose proof (inverse_shape HS) as HSi.
    assert (HS0 : meta_ok (sparse_zeros_like S)) by exact (shape_is_meta HS).
    destruct (@product_shape_ok (sparse_zeros_like S) S' HS0 (shape_is_meta HS')) as (P & EP & HP). rewrite EP. cbn [rbind].
    destruct (@product_shape_ok P (inverse_cvals S) (shape_is_meta HP) (shape_is_meta HSi)) as (F & EF & HF). rewrite EF. cbn [rbind].
    assert (HF' : shape_is F [fst k; fst kh; fst k] [map (qinv G) (snd k); map (qinv G) (snd kh); snd k] (if last_first then qinv G ch else ch)).
    { destruct HP as (_ & _ & p1 & p2 & p3), HS as (_ & _ & a1 & a2 & a3), HS' as (_ & _ & b1 & b2 & b3), HSi as (_ & _ & i1 & i2 & i3).
      rewrite p1, p2, p3, i1, i2, i3 in HF. change (legs (sparse_zeros_like S)) with (legs S) in HF. change (qlegs (sparse_zeros_like S)) with (qlegs S) in HF. change (b_rule (sparse_zeros_like S)) with (b_rule S) in HF.
      rewrite a1, a2, a3, b1, b2, b3 in HF. cbn in HF. rewrite map_map in HF. rewrite (map_ext _ (fun a => a) (qinv_inv G)), map_id in HF.
      destruct HF as (f1 & f2 & f3 & f4 & f5). split; [exact f1|]. split; [exact f2|]. split; [exact f3|]. split; [exact f4|]. rewrite f5.
      rewrite (qop_comm G (if last_first then qinv G c else c)), <- qop_assoc, qop_inv_r, qop_e_r. reflexivity. }
    destruct (@shape_ones F _ _ _ (qinv G ch) HF') as (E & EE & SM & VE & DE).
    - intros l [<-|[<-|[<-|[]]]]; destruct (fst k); destruct (fst kh); cbn in *; lia.
    - intros b Hb. destruct b as [|x [|y [|z [|? ?]]]]; cbn in Hb; rewrite ?andb_false_r in Hb; try discriminate. rewrite !andb_true_iff, !Nat.ltb_lt in Hb. cbn. rewrite qop_e_r.
      rewrite (@pick_uniform (qinv G c) x (map (qinv G) (snd k)) (length (fst k))); [|apply uniform_inv; exact HC|rewrite map_length; exact HL|tauto].
      rewrite (@pick_uniform (qinv G ch) y (map (qinv G) (snd kh)) (length (fst kh))); [|apply uniform_inv; exact HC'|rewrite map_length; exact HL'|tauto].
      rewrite (@pick_uniform c z (snd k) (length (fst k))); [|exact HC|exact HL|tauto].
      rewrite (qop_comm G (qinv G c)), <- qop_assoc, qop_inv_r, qop_e_r. reflexivity.
    - rewrite order_rule in DE. exists E. split; [exact EE|]. destruct (shape_stored HF' SM VE DE) as [TT DD]; [intros l [<-|[<-|[<-|[]]]]; assumption|]. split; [rewrite TT; destruct k; reflexivity|exact DD].
  Qed.

  (** Whole chains. *)
  Lemma stored_limit (A : bt) D k : den A D -> In k (tl A) -> length (fst k) <= imax.
  Proof.
    intros ((M & _) & _ & H) HI. apply H. rewrite <- (legs_lens M). unfold lens. apply in_map. rewrite <- (blegs_fst M). apply in_map. exact HI.
  Qed.
  Lemma F2_In A B (P : A -> B -> Prop) l m x : Forall2 P l m -> In x l -> exists y, P x y.
  Proof. induction 1; intros []; subst; eauto. Qed.
  Lemma pat3L (A : bt) x s k : tl A = [x; s; k] -> keep [None; Some 0; Some 0] (tl A) = [x]. Proof. intros ->. reflexivity. Qed.
  Lemma pat3R (A : bt) x s k : tl A = [x; s; k] -> keep [Some 0; Some 0; None] (tl A) = [k]. Proof. intros ->. reflexivity. Qed.
  Lemma inner_when (a b : list (dense R)) c c' n n' : inner a b (d_when c (d_eye n n)) (d_when c' (d_eye n' n')) = if c && c' then closed_overlap a b n n' else rz.
  Proof.
    destruct c, c'; cbn [andb d_when]; [rewrite inner_eye, !Nat.min_id; reflexivity| | |];
      unfold inner; apply sumf_zero; intros; apply sumf_zero; intros; apply sumf_zero; intros; apply sumf_zero; intros; cbn; ring.
  Qed.
  Notation lp := [None; Some 0; Some 0].
  Notation rp := [Some 0; Some 0; None].
  Lemma b_default (a b : list bt) x x' Da Db A0 B0 A1 B1 r s r' s' : Forall2 den a Da -> Forall2 den b Db -> Forall nonempty a -> Forall nonempty b ->
    mps_fit tl dual a x x' -> mps_fit tl dual b x x' -> same_phys tl a b ->
    front a = Ok A0 -> front b = Ok B0 -> back a = Ok A1 -> back b = Ok B1 ->
    edge_rule lp A0 r -> edge_rule lp B0 s -> edge_rule rp A1 r' -> edge_rule rp B1 s' ->
    exists t, b_contract_default imax a b = Ok t /\ den t (scalar (if qeqb G r s && qeqb G r' s' then closed_overlap Da Db (@bsz G x) (@bsz G x') else rz)).
  Proof.
    intros HA HB NA NB Fa Fb Fs EA0 EB0 EA1 EB1 R0 S0 R1 S1. rewrite Forall_forall in NA, NB.
    assert (Na : a <> []) by (intros ->; discriminate). assert (Nb : b <> []) by (intros ->; discriminate).
    destruct (@fit_back _ _ tl dual a x x' Na Fa) as (? & k1 & s1 & E & IA1 & TA1). rewrite EA1 in E. injection E as <-.
    destruct (@fit_back _ _ tl dual b x x' Nb Fb) as (? & l1 & t1 & E & IB1 & TB1). rewrite EB1 in E. injection E as <-.
    assert (IA0 : In A0 a) by (destruct a; [discriminate|injection EA0 as <-; left; reflexivity]).
    assert (IB0 : In B0 b) by (destruct b; [discriminate|injection EB0 as <-; left; reflexivity]).
    assert (TA0 : exists s0 k0, tl A0 = [dual x; s0; k0]) by (destruct a; [discriminate|injection EA0 as <-; exact (@fit_front _ _ tl dual _ _ x x' Fa)]).
    assert (TB0 : exists s0 k0, tl B0 = [dual x; s0; k0]) by (destruct b; [discriminate|injection EB0 as <-; exact (@fit_front _ _ tl dual _ _ x x' Fb)]).
    destruct TA0 as (s0 & k0 & TA0), TB0 as (t0 & l0 & TB0).
    destruct (@F2_In _ _ _ _ _ _ HA IA0) as (DA0 & XA0), (@F2_In _ _ _ _ _ _ HB IB0) as (DB0 & XB0), (@F2_In _ _ _ _ _ _ HA IA1) as (DA1 & XA1), (@F2_In _ _ _ _ _ _ HB IB1) as (DB1 & XB1).
    destruct (@identity_edge_ok A0 B0 lp (dual x) r s (proj1 XA0) (proj1 XB0) (NA _ IA0) (NB _ IB0) (pat3L _ TA0) (pat3L _ TB0) R0 S0) as (L & EL & TL & DL).
    { apply (@stored_limit _ _ _ XA0). rewrite TA0. left. reflexivity. }
    destruct (@identity_edge_ok A1 B1 rp x' r' s' (proj1 XA1) (proj1 XB1) (NA _ IA1) (NB _ IB1) (pat3R _ TA1) (pat3R _ TB1) R1 S1) as (E & EE & TE & DE).
    { apply (@stored_limit _ _ _ XA1). rewrite TA1. right. right. left. reflexivity. }
    rewrite bdual_dual in TL. destruct (@b_contract G R imax a b L E x x x' x' Da Db _ _ HA HB DL DE TL TE Fa Fb Fs) as (t & Et & Dt).
    exists t. split; [unfold b_contract_default; rewrite EA0, EB0; cbn [rbind]; change ([-1; 0; 0]%Z) with (zpat lp); rewrite EL; cbn [rbind]; rewrite EA1, EB1; cbn [rbind]; change ([0; 0; -1]%Z) with (zpat rp); rewrite EE; exact Et|].
    rewrite inner_when in Dt. exact Dt.
  Qed.
  Lemma expectation_when (a b h : list (dense R)) c c' n o n' o' : expectation a b h (d_when c (d_edge3 R n o n)) (d_when c' (d_edge3 R n' o' n')) = if c && c' then closed_element a b h n o n' o' else rz.
  Proof.
    destruct c, c'; cbn [andb d_when]; [rewrite expectation_edges, !Nat.min_id; reflexivity| | |];
      unfold expectation; do 6 (apply sumf_zero; intros); cbn; ring.
  Qed.
  Lemma edge_join (l o : bt) x k c c' : tl l = [x; dual x] -> den l (d_when c (d_eye (@bsz G x) (@bsz G x))) -> tl o = [k] -> den o (d_when c' (d_full [@bsz G k] ro)) ->
    exists L L' D, tensordot imax l o [] [] = Ok L /\ b_perm [0; 2; 1] L = Ok L' /\ tl L' = [x; k; dual x] /\ den L' D /\ dsh D = [@bsz G x; @bsz G k; @bsz G x] /\ deq D (d_when (c && c') (d_edge3 R (@bsz G x) (@bsz G k) (@bsz G x))).
  Proof.
    intros Tl Dl To Do.
    destruct (@stored_tdot G R imax l o _ _ [] [] Dl Do) as (L & EL & TL & DL); try rewrite Tl; try rewrite To; try reflexivity; try (cbn; lia); try apply NoDup_nil; try (intros ? []; fail).
    rewrite Tl, To in TL. cbn in TL.
    destruct (@stored_perm G R imax L _ [0; 2; 1] DL) as (L' & EL' & TL' & DL'); [rewrite TL; reflexivity| |rewrite TL; cbn; intros ? H; lia|].
    { repeat (apply NoDup_cons; [cbn; intuition discriminate|]). apply NoDup_nil. }
    rewrite TL in TL'. cbn in TL'. eexists L, L', _. split; [exact EL|]. split; [exact EL'|]. split; [exact TL'|]. split; [exact DL'|].
    pose proof (fun f g => proj1 (@edge3_deq R (@bsz G x) (@bsz G x) (@bsz G k) f g)) as E1. pose proof (fun f g => proj2 (@edge3_deq R (@bsz G x) (@bsz G x) (@bsz G k) f g)) as E2.
    destruct c, c'; (split; [reflexivity|split; [reflexivity|]]); intros i Hi;
      (eapply eq_trans; [apply E2; exact Hi|]); destruct i as [|i [|j [|m [|? ?]]]]; cbn in Hi; rewrite ?andb_false_r in Hi; try discriminate; cbn; unfold delta; try destruct (i =? m); ring.
  Qed.
  Lemma b_obs_default (a b h : list bt) x x' o o' Da Db Dh A0 B0 A1 B1 H0 H1 r s r' s' c c' : Forall2 den a Da -> Forall2 den b Db -> Forall2 den h Dh ->
    Forall nonempty a -> Forall nonempty b -> Forall nonempty h ->
    mps_fit tl dual a x x' -> mps_fit tl dual b x x' -> mpo_fit tl dual h a b o o' ->
    front a = Ok A0 -> front b = Ok B0 -> back a = Ok A1 -> back b = Ok B1 -> front h = Ok H0 -> back h = Ok H1 ->
    edge_rule lp A0 r -> edge_rule lp B0 s -> edge_rule rp A1 r' -> edge_rule rp B1 s' ->
    Forall (fun q => q = c) (snd o) -> Forall (fun q => q = c') (snd o') ->
    exists t, b_contract_obs_default imax last_first a b h = Ok t /\
      den t (scalar (if (qeqb G r s && order_ok c) && (qeqb G r' s' && order_ok c') then closed_element Da Db Dh (@bsz G x) (@bsz G o) (@bsz G x') (@bsz G o') else rz)).
  Proof.
    intros HA HB HH NA NB NH Fa Fb Fh EA0 EB0 EA1 EB1 EH0 EH1 R0 S0 R1 S1 C0 C1. rewrite Forall_forall in NA, NB, NH.
    assert (Na : a <> []) by (intros ->; discriminate). assert (Nb : b <> []) by (intros ->; discriminate). assert (Nh : h <> []) by (intros ->; discriminate).
    destruct (@fit_back _ _ tl dual a x x' Na Fa) as (? & k1 & s1 & E & IA1 & TA1). rewrite EA1 in E. injection E as <-.
    destruct (@fit_back _ _ tl dual b x x' Nb Fb) as (? & l1 & t1 & E & IB1 & TB1). rewrite EB1 in E. injection E as <-.
    destruct (@op_back _ _ tl dual h a b o o' Nh Fh) as (? & m1 & n1 & p1 & E & IH1 & TH1). rewrite EH1 in E. injection E as <-.
    assert (IA0 : In A0 a) by (destruct a; [discriminate|injection EA0 as <-; left; reflexivity]).
    assert (IB0 : In B0 b) by (destruct b; [discriminate|injection EB0 as <-; left; reflexivity]).
    assert (IH0 : In H0 h) by (destruct h; [discriminate|injection EH0 as <-; left; reflexivity]).
    assert (TA0 : exists s0 k0, tl A0 = [dual x; s0; k0]) by (destruct a; [discriminate|injection EA0 as <-; exact (@fit_front _ _ tl dual _ _ x x' Fa)]).
    assert (TB0 : exists s0 k0, tl B0 = [dual x; s0; k0]) by (destruct b; [discriminate|injection EB0 as <-; exact (@fit_front _ _ tl dual _ _ x x' Fb)]).
    assert (TH0 : exists s0 k0 u0, tl H0 = [dual o; s0; k0; u0]) by (destruct h; [discriminate|injection EH0 as <-; exact (@op_front _ _ tl dual _ _ _ _ o o' Fh)]).
    destruct TA0 as (s0 & k0 & TA0), TB0 as (t0 & l0 & TB0), TH0 as (m0 & n0 & p0 & TH0).
    destruct (@F2_In _ _ _ _ _ _ HA IA0) as (DA0 & XA0), (@F2_In _ _ _ _ _ _ HB IB0) as (DB0 & XB0), (@F2_In _ _ _ _ _ _ HA IA1) as (DA1 & XA1), (@F2_In _ _ _ _ _ _ HB IB1) as (DB1 & XB1), (@F2_In _ _ _ _ _ _ HH IH0) as (DH0 & XH0), (@F2_In _ _ _ _ _ _ HH IH1) as (DH1 & XH1).
    destruct (@identity_edge_ok A0 B0 lp (dual x) r s (proj1 XA0) (proj1 XB0) (NA _ IA0) (NB _ IB0) (pat3L _ TA0) (pat3L _ TB0) R0 S0) as (L & EL & TL & DL).
    { apply (@stored_limit _ _ _ XA0). rewrite TA0. left. reflexivity. }
    destruct (@identity_edge_ok A1 B1 rp x' r' s' (proj1 XA1) (proj1 XB1) (NA _ IA1) (NB _ IB1) (pat3R _ TA1) (pat3R _ TB1) R1 S1) as (E & EE & TE & DE).
    { apply (@stored_limit _ _ _ XA1). rewrite TA1. right. right. left. reflexivity. }
    destruct (@edge_ones_ok H0 0 (dual o) (qinv G c) (proj1 XH0) (NH _ IH0)) as (SL & OL & ESL & EOL & TOL & DOL); [rewrite TH0; cbn; lia|rewrite TH0; reflexivity|apply uniform_inv; exact C0|apply (@stored_limit _ _ _ XH0); rewrite TH0; left; reflexivity|].
    destruct (@edge_ones_ok H1 2 o' c' (proj1 XH1) (NH _ IH1)) as (SE & OE & ESE & EOE & TOE & DOE); [rewrite TH1; cbn; lia|rewrite TH1; reflexivity|exact C1|apply (@stored_limit _ _ _ XH1); rewrite TH1; right; right; left; reflexivity|].
    rewrite bdual_dual in TL, TOL.
    assert (OKi : order_ok (qinv G c) = order_ok c). { unfold order_ok. f_equal. apply eq_true_iff_eq. rewrite !qeqb_spec, qinv_inv. split; congruence. }
    rewrite OKi in DOL.
    destruct (@edge_join L OL x o _ _ TL DL TOL DOL) as (L2 & L3 & DL3 & EL2 & EL3 & TL3 & HL3 & SL3 & VL3).
    assert (TE' : tl E = [dual x'; dual (dual x')]) by (rewrite bdual_dual; exact TE).
    destruct (@edge_join E OE (dual x') (dual o') _ _ TE' DE TOE DOE) as (E2 & E3 & DE3 & EE2 & EE3 & TE3 & HE3 & SE3 & VE3). rewrite bdual_dual in TE3.
    destruct (@b_contract_obs G R imax a b h L3 E3 x o x x' o' x' Da Db Dh _ _ HA HB HH HL3 HE3 TL3 TE3 Fa Fb Fh) as (t & Et & Dt).
    exists t. split.
    - unfold b_contract_obs_default. rewrite EA0, EB0. cbn [rbind]. change ([-1; 0; 0]%Z) with (zpat lp). rewrite EL. cbn [rbind]. rewrite EA1, EB1. cbn [rbind].
      change ([0; 0; -1]%Z) with (zpat rp). rewrite EE. cbn [rbind]. rewrite EH0. cbn [rbind]. rewrite ESL. cbn [rbind]. rewrite EOL. cbn [rbind]. rewrite EL2. cbn [rbind]. rewrite EL3. cbn [rbind].
      rewrite EH1. cbn [rbind]. rewrite ESE. cbn [rbind]. rewrite EOE. cbn [rbind]. rewrite EE2. cbn [rbind]. rewrite EE3. cbn [rbind]. exact Et.
    - rewrite (expectation_deq _ _ _ SL3 SE3 VL3 VE3), expectation_when in Dt. exact Dt.
  Qed.
End B.
