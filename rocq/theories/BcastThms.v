From Verif Require Import Base Quantity QuantityProofs FlatMap SpecFlatMap FlatMapProofs FlatMapThms Ring Index SpecIndex IndexProofs LegsProofs
  Dense BTensor SpecBTensor BTensorProofs BTensorThms TensordotThms ViewProofs Bcast SpecBcast BcastProofs.
From Coq Require Import Lia.
Set Implicit Arguments.

Notation masks S L := (map2 (fun a b => (bc_one b, bc_one a)) S L).
Lemma lens_app A (L M : list (list A)) : lens (L ++ M) = lens L ++ lens M.
Proof. apply map_app. Qed.
Lemma lens_length A (L : list (list A)) : length (lens L) = length L.
Proof. apply map_length. Qed.
Lemma split_range (P M : list (list nat)) k : in_range (lens (P ++ M)) k = true -> exists p i, k = p ++ i /\ length p = length P /\ length i = length M /\
  in_range (lens P) p = true /\ in_range (lens M) i = true.
Proof.
  intros H. pose proof (in_range_length _ _ H) as Hl. rewrite lens_app, app_length, !lens_length in Hl.
  exists (firstn (length P) k), (skipn (length P) k). rewrite firstn_skipn. split; auto.
  assert (H1 : length (firstn (length P) k) = length P) by (rewrite firstn_length; lia).
  assert (H2 : length (skipn (length P) k) = length M) by (rewrite skipn_length; lia).
  rewrite <- (firstn_skipn (length P) k), lens_app, in_range_app in H by (rewrite H1, lens_length; auto).
  apply andb_prop in H as [H3 H4]. auto.
Qed.
Lemma bsel_app (P S : list (list nat)) p i : length p = length P -> length i = length S -> in_range (lens P) p = true -> bsel (P ++ S) (p ++ i) = p ++ map2 sel S i.
Proof.
  intros H1 H2 Hp. unfold bsel. rewrite !app_length, H1, H2, Nat.sub_diag. cbn [skipn]. rewrite map2_app by auto. rewrite sel_all by auto. auto.
Qed.
Lemma bsel_tail (L : list (list nat)) p i : length i = length L -> bsel L (p ++ i) = map2 sel L i.
Proof. intros H. unfold bsel. rewrite app_length, H, Nat.add_sub, skipn_app, skipn_all, Nat.sub_diag. reflexivity. Qed.
Lemma lastn_app (p i : list nat) n : length i = n -> lastn n (p ++ i) = i.
Proof. intros <-. unfold lastn. rewrite app_length, Nat.add_sub, skipn_app, skipn_all, Nat.sub_diag. reflexivity. Qed.
Lemma lastn_all (i : list nat) n : length i = n -> lastn n i = i.
Proof. apply (lastn_app []). Qed.
Lemma match_eq S L p x y : length S = length L -> length x = length S -> length y = length L ->
  match_index (masks S L) (p ++ x) y = matchl S L x y.
Proof. intros H1 H2 H3. unfold match_index, matchl. rewrite map2_length by auto. rewrite lastn_app, lastn_all by lia. reflexivity. Qed.
Lemma out_eq p x y : length x = length y -> out_index (p ++ x) y = Ok (p ++ map2 Nat.max x y).
Proof.
  intros H. unfold out_index. rewrite app_length. destruct (Nat.ltb_spec (length p + length x) (length y)); [lia|].
  rewrite lastn_app by auto. replace (length p + length x - length y) with (length p) by lia.
  rewrite firstn_app, firstn_all, Nat.sub_diag. cbn. rewrite app_nil_r. auto.
Qed.
Lemma map2_sel_length (S : list (list nat)) i : length i = length S -> length (map2 sel S i) = length S.
Proof. intros; apply map2_length; auto. Qed.
Lemma key_fwd P S L k : Forall2 wk S L -> in_range (lens (P ++ map2 bleg S L)) k = true ->
  let kw := bsel (P ++ S) k in let kn := bsel L k in
  in_range (lens (P ++ S)) kw = true /\ in_range (lens L) kn = true /\ match_index (masks S L) kw kn = true /\ out_index kw kn = Ok k /\
  bc_shape (rev (pick 0 (P ++ S) kw)) (rev (pick 0 L kn)) = Some (rev (pick 0 (P ++ map2 bleg S L) k)).
Proof.
  intros F H. pose proof (F2_length F) as Hl. destruct (split_range _ _ _ H) as (p & i & -> & Hp & Hi & Rp & Ri). cbv zeta.
  rewrite map2_length in Hi by auto. rewrite bsel_app, bsel_tail by lia || auto.
  destruct (fwd F _ Ri) as [H1 [H2 [H3 H4]]].
  split; [rewrite lens_app, in_range_app by (rewrite lens_length; auto); rewrite Rp, H1; auto|]. split; auto.
  rewrite match_eq, out_eq by (rewrite ?map2_sel_length by lia; lia). rewrite H3. repeat split; auto. apply shape_all; auto.
Qed.
Lemma key_back P S L kw kn : Forall2 wk S L -> in_range (lens (P ++ S)) kw = true -> in_range (lens L) kn = true -> match_index (masks S L) kw kn = true ->
  exists k, in_range (lens (P ++ map2 bleg S L)) k = true /\ kw = bsel (P ++ S) k /\ kn = bsel L k.
Proof.
  intros F Hw Hn Hm. pose proof (F2_length F) as Hl. destruct (split_range _ _ _ Hw) as (p & i & -> & Hp & Hi & Rp & Ri).
  pose proof (in_range_length _ _ Hn) as Ln. rewrite lens_length in Ln. rewrite match_eq in Hm by lia.
  destruct (back F _ _ Ri Hn Hm) as [H1 [H2 H3]]. assert (Lm : length (map2 Nat.max i kn) = length S) by (rewrite map2_length; lia).
  exists (p ++ map2 Nat.max i kn). rewrite bsel_app, bsel_tail by lia || auto. rewrite H2, H3. repeat split; auto.
  rewrite lens_app, in_range_app by (rewrite lens_length; auto). rewrite Rp, H1. auto.
Qed.

Section T.
  Variable G : abgroup.
  Variable R : ring.
  Notation t := (btensor G R).
  Implicit Types A B T W N : t.
  Notation KO := key_order_idx.
  Lemma dims_eq T : meta_ok T -> dims T = combine (legs T) (qlegs T).
  Proof.
    intros H. pose proof (legs_length H) as H1. pose proof (qlegs_length H) as H2. pose proof (proj1 H) as H3.
    unfold dims. apply nth_ext' with (d := ([], [])).
    - rewrite map_length, seq_length, combine_length. lia.
    - rewrite map_length, seq_length. intros k Hk. rewrite combine_nth by lia.
      set (F := fun d => _). erewrite nth_indep; [|rewrite map_length, seq_length; auto]. instantiate (1 := F 0). rewrite map_nth, seq_nth by auto.
      unfold F. cbn [plus]. rewrite !prange_unpack by lia. reflexivity.
  Qed.
  Lemma pairs_ok S L : Forall2 good S L -> forall QS QL : list (list G), lens QS = lens S -> lens QL = lens L ->
    let pairs := combine (combine L QL) (combine S QS) in
    rmapM (fun '(s, l) => bc_mask (fst s) (fst l)) pairs = Ok (masks S L) /\
    rmapM (fun '(s, l) => bc_leg s l) pairs = Ok (combine (map2 bleg S L) (map2 bqleg QS QL)) /\
    lens (map2 bqleg QS QL) = lens (map2 bleg S L) /\
    map (fun '(m, (s, l)) => if fst m || snd m then Nat.max (length (fst s)) (length (fst l)) else length (fst l)) (combine (masks S L) pairs) = lens (map2 bleg S L).
  Proof.
    induction 1 as [|a b S L H F IH]; intros [|qa QS] [|qb QL] H1 H2; try discriminate; [cbn; auto|].
    cbn [lens map] in H1, H2. injection H1 as H1 H1'. injection H2 as H2 H2'. destruct (IH QS QL H1' H2') as [I1 [I2 [I3 I4]]].
    destruct (@leg_ok G _ _ _ _ H H1 H2) as [G1 [G2 [G3 G4]]]. cbv zeta in *. cbn [combine rmapM map2 lens map fst snd].
    cbv beta iota. cbn [fst snd]. rewrite G1, G4. cbn [rbind]. rewrite I1, I2. cbn [rbind]. repeat split; auto.
    - unfold lens in I3. rewrite G2, I3. auto.
    - unfold lens in I4. rewrite G3, I4. auto.
  Qed.
  Lemma good_wk a b : good a b -> wk a b.
  Proof. unfold good, wk. tauto. Qed.
  Lemma Forall2_imp (X : Type) (P Q : X -> X -> Prop) l m : (forall x y, P x y -> Q x y) -> Forall2 P l m -> Forall2 Q l m.
  Proof. intros H. induction 1; constructor; auto. Qed.
  Lemma map_firstn X Y (f : X -> Y) n l : map f (firstn n l) = firstn n (map f l).
  Proof. symmetry; apply firstn_map. Qed.
  Lemma combine_firstn X Y n (l : list X) : forall m : list Y, firstn n (combine l m) = combine (firstn n l) (firstn n m).
  Proof. revert n; induction l; intros [|n] [|y m]; cbn; auto. f_equal; auto. Qed.
  Lemma combine_skipn X Y n (l : list X) : forall m : list Y, skipn n (combine l m) = combine (skipn n l) (skipn n m).
  Proof. revert n; induction l; intros [|n] [|y m]; cbn; auto. destruct (skipn n l); auto. Qed.
  Lemma fst_combine X Y (l : list X) : forall m : list Y, length l = length m -> map fst (combine l m) = l /\ map snd (combine l m) = m.
  Proof. induction l as [|x l IH]; intros [|y m] H; try discriminate; auto. injection H as H. destruct (IH _ H) as [H1 H2]. cbn. rewrite H1, H2. auto. Qed.

  Section WN.
    Variables W N : t.
    Let p := b_rank W - b_rank N.
    Let P := firstn p (legs W).
    Let S := skipn p (legs W).
    Let L := legs N.
    Let QP := firstn p (qlegs W).
    Let QS := skipn p (qlegs W).
    Let QL := qlegs N.
    Let L' := P ++ map2 bleg S L.
    Let Q' := QP ++ map2 bqleg QS QL.
    Hypothesis HW : valid W.
    Hypothesis HN : valid N.
    Hypothesis Hr : b_rank N <= b_rank W.
    Hypothesis HG : Forall2 good S L.
    Definition bshape : t := @mkB G R (qop G (b_rule W) (b_rule N)) (b_rank W) (lens L') (concat L') (concat Q') [].
    Lemma HF : Forall2 wk S L.
    Proof. eapply Forall2_imp; [|exact HG]. intros; apply good_wk; auto. Qed.
    Lemma lensQ : lens QS = lens S /\ lens QL = lens L /\ lens QP = lens P.
    Proof.
      destruct HW as [MW _], HN as [MN _]. unfold QS, S, QL, L, QP, P, lens. rewrite <- !skipn_map, <- !firstn_map. fold (lens (qlegs W)) (lens (legs W)) (lens (qlegs N)) (lens (legs N)).
      rewrite !qlegs_lens, !legs_lens by auto. auto.
    Qed.
    Lemma shape_ok : shape_compute N W = Ok (masks S L, bshape) /\ lens Q' = lens L' /\ length L' = b_rank W.
    Proof.
      destruct HW as [MW _], HN as [MN _]. destruct lensQ as [E1 [E2 E3]].
      destruct (pairs_ok HG QS QL E1 E2) as [H1 [H2 [H3 H4]]]. cbv zeta in *.
      assert (HQ : lens Q' = lens L') by (unfold Q', L'; rewrite !lens_app, E3, H3; auto).
      pose proof (legs_length MW) as LW. pose proof (legs_length MN) as LN. pose proof (qlegs_length MW) as LQW. pose proof (F2_length HG) as LS.
      assert (HL : length L' = b_rank W).
      { unfold L'. rewrite app_length, map2_length by auto. unfold P. rewrite firstn_length, LS. unfold L. rewrite LN. unfold p. rewrite LW. lia. }
      split; auto. unfold shape_compute. fold p. rewrite !dims_eq by auto. rewrite combine_skipn, combine_firstn. fold P S L QP QS QL.
      rewrite H1. cbn [rbind]. rewrite H2. cbn [rbind]. rewrite H4. unfold bshape.
      assert (LP : length P = length QP) by (rewrite <- (lens_length P), <- (lens_length QP), E3; auto).
      assert (LM : length (map2 bleg S L) = length (map2 bqleg QS QL)) by (rewrite <- (lens_length (map2 bleg S L)), <- (lens_length (map2 bqleg QS QL)), H3; auto).
      rewrite !map_app. destruct (fst_combine _ _ LP) as [-> ->]. destruct (fst_combine _ _ LM) as [-> ->].
      fold L' Q'. do 3 f_equal. unfold L'. rewrite lens_app. f_equal. unfold P, lens. rewrite <- firstn_map. fold (lens (legs W)).
      rewrite legs_lens by auto. reflexivity.
    Qed.
    Lemma bshape_legs : legs bshape = L' /\ qlegs bshape = Q' /\ meta_ok bshape.
    Proof.
      destruct shape_ok as [_ [H1 H2]]. destruct (@from_legs G R (qop G (b_rule W) (b_rule N)) (b_rank W) L' Q') as [H3 [H4 [H5 _]]]; auto.
    Qed.
    Lemma W_legs : P ++ S = legs W /\ QP ++ QS = qlegs W.
    Proof. split; apply firstn_skipn. Qed.
    Lemma allowed_out k : in_range (lens L') k = true -> allowed W (bsel (legs W) k) -> allowed N (bsel L k) -> allowed bshape k.
    Proof.
      intros Hk [_ AW] [_ AN]. destruct bshape_legs as [_ [H2 _]]. split; [exact Hk|]. rewrite H2. cbn [b_rule bshape].
      destruct lensQ as [E1 [E2 E3]]. destruct (pairs_ok HG QS QL E1 E2) as [_ [_ [H3 _]]].
      destruct W_legs as [E4 E5]. rewrite <- E4 in AW. rewrite <- E5 in AW. pose proof (F2_length HG) as LS.
      destruct (split_range _ _ _ Hk) as (q & i & -> & Lq & Li & Rq & Ri). rewrite map2_length in Li by auto.
      rewrite bsel_app in AW by lia || auto. rewrite bsel_tail in AN by lia.
      assert (LP : length QP = length P) by (rewrite <- (lens_length P), <- (lens_length QP), E3; auto).
      unfold Q'. rewrite pick_app in AW |- * by lia. rewrite qprod_app in AW |- *. rewrite (@qprod_suffix G _ _ HF QS QL i E1 E2 Ri).
      2:{ intros d Hd. change (length (@nil G)) with (length (@nil nat)). rewrite <- (map_nth (@length G)), <- (map_nth (@length nat)).
          change (length (@nil G)) with 0. change (length (@nil nat)) with 0. fold (lens (map2 bqleg QS QL)) (lens (map2 bleg S L)). rewrite H3. auto. }
      rewrite <- AW, <- AN. rewrite !qop_assoc. reflexivity.
    Qed.
    Lemma allowed_in k : in_range (lens L') k = true -> in_range (b_sbd W) (bsel (legs W) k) = true /\ in_range (b_sbd N) (bsel L k) = true.
    Proof.
      intros Hk. destruct (key_fwd P _ HF Hk) as [H1 [H2 _]]. destruct HW as [MW _], HN as [MN _].
      rewrite <- (legs_lens MW), <- (legs_lens MN). rewrite <- (proj1 W_legs). auto.
    Qed.

    (** The loop, the two tensors given as [this] and [other]. *)
    Variable this_large : bool.
    Variable f : R -> R -> R.
    Let A := if this_large then W else N.
    Let B := if this_large then N else W.
    Let pairs := flat_map (fun b => map (fun a => (a, b)) (b_blocks A)) (b_blocks B).
    Notation entry := (list nat * dense R)%type.
    Let val (k : list nat) (ta tb : dense R) : dense R := mkD (pick 0 L' k) (fun o => f (dv ta (bproj (dsh ta) o)) (dv tb (bproj (dsh tb) o))).
    Let wn (pr : entry * entry) : list nat * list nat := if this_large then (fst (fst pr), fst (snd pr)) else (fst (snd pr), fst (fst pr)).
    Let mt (pr : entry * entry) : bool := match_index (masks S L) (fst (wn pr)) (snd (wn pr)).
    Let key (pr : entry * entry) : list nat := match out_index (fst (wn pr)) (snd (wn pr)) with Ok k => k | _ => [] end.
    Let kv (pr : entry * entry) : entry := (key pr, val (key pr) (snd (fst pr)) (snd (snd pr))).
    Lemma in_pairs a b : In (a, b) pairs <-> In a (b_blocks A) /\ In b (b_blocks B).
    Proof.
      unfold pairs. rewrite in_flat_map. split.
      - intros (b' & Hb & H). apply in_map_iff in H as (a' & E & Ha). injection E as -> ->. auto.
      - intros [Ha Hb]. exists b. split; auto. apply in_map_iff. eauto.
    Qed.
    Lemma step_ok pr : In pr pairs -> mt pr = true -> exists k, in_range (lens L') k = true /\ key pr = k /\
      out_index (fst (wn pr)) (snd (wn pr)) = Ok k /\ fst (wn pr) = bsel (legs W) k /\ snd (wn pr) = bsel L k /\
      t_zip false f (snd (fst pr)) (snd (snd pr)) = Ok (val k (snd (fst pr)) (snd (snd pr))).
    Proof.
      destruct pr as [[ka ta] [kb tb]]. intros Hi Hm. apply in_pairs in Hi as [Ha Hb]. destruct HW as [MW [BW _]], HN as [MN [BN _]].
      assert (HH : exists tw tn, In (fst (wn ((ka, ta), (kb, tb))), tw) (b_blocks W) /\ In (snd (wn ((ka, ta), (kb, tb))), tn) (b_blocks N) /\
        ((this_large = true /\ ta = tw /\ tb = tn) \/ (this_large = false /\ ta = tn /\ tb = tw))).
      { unfold wn, A, B in *. destruct this_large; cbn [fst snd]; [exists ta, tb|exists tb, ta]; intuition auto. }
      destruct HH as (tw & tn & Iw & In' & Hc). destruct (BW _ _ Iw) as [[Rw _] Sw]. destruct (BN _ _ In') as [[Rn _] Sn].
      rewrite <- (legs_lens MW), <- (proj1 W_legs) in Rw. rewrite <- (legs_lens MN) in Rn. fold L in Rn.
      destruct (key_back P _ _ HF Rw Rn Hm) as (k & Hk & E1 & E2). destruct (key_fwd P _ HF Hk) as [_ [_ [_ [H4 H5]]]].
      rewrite <- E1, <- E2 in H4, H5. exists k. split; [exact Hk|]. unfold key. rewrite H4. split; auto. split; auto.
      rewrite (proj1 W_legs) in E1, H5. split; auto. split; auto. cbn [fst snd]. rewrite <- Sw in H5. unfold L in H5. rewrite <- Sn in H5. unfold t_zip.
      destruct Hc as [[_ [-> ->]]|[_ [-> ->]]]; [|rewrite bc_shape_comm]; rewrite H5, rev_involutive; reflexivity.
    Qed.
    Lemma fold_filter X (l : list X) (m : X -> bool) (g : X -> entry) : forall acc,
      fold_left (fun acc x => if m x then emp acc (g x) else acc) l acc = fold_left (@emp _) (map g (filter m l)) acc.
    Proof. induction l as [|x l IH]; intros acc; cbn; auto. destruct (m x); cbn; auto. Qed.
    Lemma loop_ok : exists bl, bc_loop (masks S L) this_large (t_zip false f) A B = Ok bl /\ sorted lexb bl /\
      (forall k, in_range (lens L') k = true -> assoc leqb k bl =
        match assoc leqb (bsel (legs A) k) (b_blocks A), assoc leqb (bsel (legs B) k) (b_blocks B) with
        | Some ta, Some tb => Some (val k ta tb) | _, _ => None end) /\
      (forall k, in_range (lens L') k = false -> assoc leqb k bl = None).
    Proof.
      exists (fold_left (@emp _) (map kv (filter mt pairs)) []). destruct (@fold_emp _ (map kv (filter mt pairs)) [] ltac:(constructor)) as [HS HA].
      assert (SA : sorted lexb (b_blocks A) /\ sorted lexb (b_blocks B)).
      { unfold A, B. destruct HW as [_ [_ S1]], HN as [_ [_ S2]]. destruct this_large; auto. }
      split; [|split; [auto|]].
      - unfold bc_loop.
        transitivity (rfold (fun s (b : entry) => rfold (fun s (a : entry) => (fun s a b => if mt (a, b) then do k <- out_index (fst (wn (a, b))) (snd (wn (a, b))) ; do v <- t_zip false f (snd a) (snd b) ; Ok (emp s (k, v)) else Ok s) s a b) (b_blocks A) s) (b_blocks B) []).
        { apply rfold_ext. intros s [kb tb] _. apply rfold_ext. intros s' [ka ta] _. unfold mt, wn. destruct this_large; reflexivity. }
        rewrite rfold_nested. fold pairs. erewrite rfold_pure with (g := fun s pr => if mt pr then emp s (kv pr) else s); [rewrite fold_filter; auto|].
        intros s pr Hin. cbv beta. rewrite <- (surjective_pairing pr). destruct (mt pr) eqn:Em; auto. destruct (step_ok _ Hin Em) as (k & Hk & E1 & E2 & _ & _ & E3).
        rewrite E2, E3. cbn [rbind]. unfold kv. rewrite E1. auto.
      - assert (HI : forall k v, In (k, v) (map kv (filter mt pairs)) -> in_range (lens L') k = true /\ exists ta tb,
            In (bsel (legs A) k, ta) (b_blocks A) /\ In (bsel (legs B) k, tb) (b_blocks B) /\ v = val k ta tb).
        { intros k v Hi. apply in_map_iff in Hi as ([[ka ta] [kb tb]] & E & Hi). apply filter_In in Hi as [Hi Hm].
          destruct (step_ok _ Hi Hm) as (k' & Hk & E1 & E2 & E3 & E4 & E5). unfold kv in E. rewrite E1 in E. injection E as -> <-.
          split; auto. exists ta, tb. apply in_pairs in Hi as [Ha Hb]. unfold wn in E3, E4. unfold A, B in *. cbn [fst snd] in *.
          destruct this_large; cbn [fst snd] in *; fold L; rewrite <- E3, <- E4; auto. }
        split; intros k Hk; rewrite HA; cbn [assoc].
        + destruct (key_fwd P _ HF Hk) as [_ [_ [H3 [H4 _]]]]. rewrite (proj1 W_legs) in H3, H4.
          destruct (assoc leqb (bsel (legs A) k) (b_blocks A)) as [ta|] eqn:Ea; [destruct (assoc leqb (bsel (legs B) k) (b_blocks B)) as [tb|] eqn:Eb|].
          * apply (assoc_In KO) in Ea, Eb. apply assoc_fun.
            -- apply in_map_iff. exists ((bsel (legs A) k, ta), (bsel (legs B) k, tb)).
               assert (Ew : wn ((bsel (legs A) k, ta), (bsel (legs B) k, tb)) = (bsel (legs W) k, bsel L k)) by (unfold wn, A, B; destruct this_large; auto).
               unfold kv, key. rewrite Ew. cbn [fst snd]. rewrite H4. split; auto. apply filter_In. split; [apply in_pairs; auto|].
               unfold mt. rewrite Ew. exact H3.
            -- intros v' Hv. destruct (HI _ _ Hv) as (_ & ta' & tb' & Ha' & Hb' & ->).
               apply (In_assoc KO) in Ea, Eb, Ha', Hb'; try tauto. congruence.
          * apply assoc_no. intros v Hv. destruct (HI _ _ Hv) as (_ & ta' & tb' & Ha' & Hb' & _). apply (In_assoc KO) in Hb'; try tauto. congruence.
          * apply assoc_no. intros v Hv. destruct (HI _ _ Hv) as (_ & ta' & tb' & Ha' & Hb' & _). apply (In_assoc KO) in Ha'; try tauto. congruence.
        + apply assoc_no. intros v Hv. destruct (HI _ _ Hv) as (Hk' & _). congruence.
    Qed.
    Lemma loop_thm : exists bl, bc_loop (masks S L) this_large (t_zip false f) A B = Ok bl /\ let C := with_blocks bshape bl in
      valid C /\ b_rule C = qop G (b_rule A) (b_rule B) /\ legs C = L' /\ qlegs C = Q' /\
      (forall b, in_range (b_sbd C) b = true -> stores C b <-> stores A (bsel (legs A) b) /\ stores B (bsel (legs B) b)) /\
      (forall b o, stores C b -> bentry C b o = f (bentry A (bsel (legs A) b) (bproj (pick 0 (legs A) (bsel (legs A) b)) o))
                                                 (bentry B (bsel (legs B) b) (bproj (pick 0 (legs B) (bsel (legs B) b)) o))).
    Proof.
      destruct loop_ok as (bl & E & HS & H1 & H2). exists bl. split; auto. cbv zeta. destruct bshape_legs as [H3 [H4 H5]].
      assert (VA : valid A /\ valid B) by (unfold A, B; destruct this_large; auto). destruct VA as [VA VB].
      assert (HI : forall k v, assoc leqb k bl = Some v -> in_range (lens L') k = true).
      { intros k v Hk. destruct (in_range (lens L') k) eqn:Er; auto. rewrite H2 in Hk; auto. discriminate. }
      split; [|split; [|split; [|split; [|split]]]]; auto.
      - split; [exact H5|split; [|exact HS]]. apply blocks_ok_assoc; [exact HS|]. intros b v Hb. cbn [b_blocks with_blocks] in Hb.
        pose proof (HI _ _ Hb) as Hr'. rewrite (H1 _ Hr') in Hb.
        destruct (assoc leqb (bsel (legs A) b) (b_blocks A)) as [ta|] eqn:Ea; [|discriminate].
        destruct (assoc leqb (bsel (legs B) b) (b_blocks B)) as [tb|] eqn:Eb; [|discriminate]. injection Hb as <-.
        destruct (valid_assoc _ VA Ea) as [AA _]. destruct (valid_assoc _ VB Eb) as [AB _].
        split; [|change (legs (with_blocks bshape bl)) with (legs bshape); rewrite H3; reflexivity].
        change (allowed bshape b). apply allowed_out; auto; unfold A, B in *; destruct this_large; auto.
      - cbn. unfold A, B. destruct this_large; auto. apply qop_comm.
      - intros b Hb. unfold stores. cbn [b_blocks with_blocks]. rewrite (H1 _ Hb). split.
        + intros [x Hx]. destruct (assoc leqb (bsel (legs A) b) (b_blocks A)); [|discriminate]. destruct (assoc leqb (bsel (legs B) b) (b_blocks B)); [|discriminate]. eauto.
        + intros [[x ->] [y ->]]. eauto.
      - intros b o [x Hx]. cbn [b_blocks with_blocks] in Hx. pose proof (HI _ _ Hx) as Hr'. unfold bentry at 1. cbn [b_blocks with_blocks]. rewrite Hx.
        rewrite (H1 _ Hr') in Hx. unfold bentry.
        destruct (assoc leqb (bsel (legs A) b) (b_blocks A)) as [ta|] eqn:Ea; [|discriminate].
        destruct (assoc leqb (bsel (legs B) b) (b_blocks B)) as [tb|] eqn:Eb; [|discriminate]. injection Hx as <-.
        destruct (valid_assoc _ VA Ea) as [_ <-]. destruct (valid_assoc _ VB Eb) as [_ <-]. reflexivity.
    Qed.
  End WN.
End T.
