From Verif Require Import Base Quantity QuantityProofs FlatMap SpecFlatMap FlatMapProofs FlatMapThms Ring Index SpecIndex IndexProofs LegsProofs
  Dense BTensor SpecBTensor BTensorProofs BTensorThms TensordotThms Bcast SpecBcast.
From Coq Require Import Lia.
Set Implicit Arguments.

(** * One dimension *)
Definition wk (a b : list nat) : Prop := a = b \/ a = [1] \/ b = [1].
Definition good (a b : list nat) : Prop := a = b \/ (a = [1] /\ b <> []) \/ (b = [1] /\ 1 < length a).
Lemma bc_one_iff l : bc_one l = true <-> l = [1].
Proof.
  unfold bc_one. split.
  - intros H. apply andb_prop in H as [H1 H2]. apply Nat.eqb_eq in H1, H2. destruct l as [|x [|]]; try discriminate. cbn in H2; subst; auto.
  - intros ->; reflexivity.
Qed.
Lemma bleg_1 b : bleg [1] b = b.
Proof. reflexivity. Qed.
Lemma bleg_n a b : a <> [1] -> bleg a b = a.
Proof. unfold bleg. destruct (leqb a [1]) eqn:E; auto. apply leqb_eq in E. tauto. Qed.
Lemma bleg_r1 a : bleg a [1] = a.
Proof. unfold bleg. destruct (leqb a [1]) eqn:E; auto. apply leqb_eq in E. auto. Qed.
Lemma bleg_same a : bleg a a = a.
Proof. unfold bleg. destruct (leqb a [1]); auto. Qed.
Lemma sel_in A (l : list A) i : i < length l -> sel l i = i.
Proof. unfold sel. destruct (Nat.eqb_spec (length l) 1); lia. Qed.
Lemma sel_1 i : sel [1] i = 0.
Proof. reflexivity. Qed.
Lemma fwd1 a b i : wk a b -> i < length (bleg a b) ->
  sel a i < length a /\ sel b i < length b /\ Nat.max (sel a i) (sel b i) = i /\ ((bc_one b || bc_one a) || (sel a i =? sel b i)) = true.
Proof.
  intros [->|[->| ->]] H.
  - rewrite bleg_same in H. rewrite !sel_in by auto. rewrite Nat.eqb_refl, orb_true_r. repeat split; auto; lia.
  - rewrite bleg_1 in H. rewrite sel_1, (sel_in b) by auto. change (bc_one [1]) with true. rewrite orb_true_r. repeat split; auto; cbn; lia.
  - rewrite bleg_r1 in H. rewrite sel_1, (sel_in a) by auto. repeat split; auto; try lia.
Qed.
Lemma back1 a b i j : wk a b -> i < length a -> j < length b -> ((bc_one b || bc_one a) || (i =? j)) = true ->
  Nat.max i j < length (bleg a b) /\ sel a (Nat.max i j) = i /\ sel b (Nat.max i j) = j.
Proof.
  intros Hw Hi Hj Hm. assert (Hc : a = [1] \/ b = [1] \/ (a = b /\ i = j)).
  { apply orb_prop in Hm as [Hm|Hm]; [apply orb_prop in Hm as [Hm|Hm]; apply bc_one_iff in Hm; auto|]. apply Nat.eqb_eq in Hm.
    destruct Hw as [->|[->| ->]]; auto. }
  destruct Hc as [->|[->|[-> ->]]].
  - cbn in Hi. replace i with 0 by lia. rewrite bleg_1, sel_1, Nat.max_0_l, (sel_in b) by auto. auto.
  - cbn in Hj. replace j with 0 by lia. rewrite bleg_r1, sel_1, Nat.max_0_r, (sel_in a) by auto. auto.
  - rewrite bleg_same, Nat.max_id, sel_in by auto. auto.
Qed.
Lemma size1 a b i : wk a b -> i < length (bleg a b) -> let x := nth (sel a i) a 0 in let y := nth (sel b i) b 0 in
  ((x =? y) || (x =? 1) || (y =? 1)) = true /\ nth i (bleg a b) 0 = if x =? 1 then y else x.
Proof.
  intros [->|[->| ->]] H; cbv zeta.
  - rewrite bleg_same in *. rewrite sel_in by auto. rewrite Nat.eqb_refl. destruct (_ =? 1); auto.
  - rewrite bleg_1 in *. rewrite sel_1, (sel_in b) by auto. cbn [nth]. rewrite orb_true_r. cbn. auto.
  - rewrite bleg_r1 in *. rewrite sel_1, (sel_in a) by auto. cbn [nth]. rewrite orb_true_r. split; auto.
    destruct (Nat.eqb_spec (nth i a 0) 1); auto.
Qed.

(** * Lists of dimensions *)
Lemma map2_length A B C (f : A -> B -> C) l m : length l = length m -> length (map2 f l m) = length l.
Proof. revert m; induction l; intros [|y m] H; try discriminate; cbn; auto. Qed.
Lemma map2_app A B C (f : A -> B -> C) l m l' m' : length l = length m -> map2 f (l ++ l') (m ++ m') = map2 f l m ++ map2 f l' m'.
Proof. revert m; induction l; intros [|y m] H; try discriminate; cbn; auto. f_equal; auto. Qed.
Lemma map2_rev A B C (f : A -> B -> C) l m : length l = length m -> rev (map2 f l m) = map2 f (rev l) (rev m).
Proof.
  revert m; induction l as [|x l IH]; intros [|y m] H; try discriminate; auto. cbn. rewrite IH by auto.
  rewrite map2_app by (rewrite !rev_length; auto). reflexivity.
Qed.
Definition matchl (S L : list (list nat)) (x y : list nat) : bool :=
  forallb (fun '(m, (i, j)) => (fst m || snd m) || (i =? j)) (combine (map2 (fun a b => (bc_one b, bc_one a)) S L) (combine x y)).
Lemma fwd S L : Forall2 wk S L -> forall i, in_range (lens (map2 bleg S L)) i = true ->
  in_range (lens S) (map2 sel S i) = true /\ in_range (lens L) (map2 sel L i) = true /\
  map2 Nat.max (map2 sel S i) (map2 sel L i) = i /\ matchl S L (map2 sel S i) (map2 sel L i) = true.
Proof.
  induction 1 as [|a b S L H F IH]; intros [|i ix] Hi; try discriminate; auto.
  cbn [map2 lens map] in Hi. apply in_range_cons in Hi as [Hi Hx]. destruct (IH _ Hx) as [H1 [H2 [H3 H4]]].
  destruct (fwd1 H Hi) as [G1 [G2 [G3 G4]]]. cbn [map2 lens map]. repeat split.
  - apply in_range_cons; auto.
  - apply in_range_cons; auto.
  - f_equal; auto.
  - unfold matchl. cbn [map2 combine forallb fst snd]. rewrite G4. exact H4.
Qed.
Lemma back S L : Forall2 wk S L -> forall x y, in_range (lens S) x = true -> in_range (lens L) y = true -> matchl S L x y = true ->
  in_range (lens (map2 bleg S L)) (map2 Nat.max x y) = true /\ map2 sel S (map2 Nat.max x y) = x /\ map2 sel L (map2 Nat.max x y) = y.
Proof.
  induction 1 as [|a b S L H F IH]; intros [|i x] [|j y] Hi Hj Hm; try discriminate; auto.
  cbn [lens map] in Hi, Hj. apply in_range_cons in Hi as [Hi Hx]. apply in_range_cons in Hj as [Hj Hy].
  unfold matchl in Hm. cbn [map2 combine forallb fst snd] in Hm. apply andb_prop in Hm as [Hm Hm'].
  destruct (IH _ _ Hx Hy Hm') as [H1 [H2 H3]]. destruct (back1 H Hi Hj Hm) as [G1 [G2 G3]].
  cbn [map2 lens map]. repeat split; [apply in_range_cons; auto| |]; f_equal; auto.
Qed.
Lemma bc_shape_pre x : forall y z, length x = length y -> bc_shape (x ++ z) y = match bc_shape x y with Some r => Some (r ++ z) | None => None end.
Proof.
  induction x as [|a x IH]; intros [|b y] z H; try discriminate; cbn; [destruct z; auto|].
  destruct ((_ || _) || _); auto. rewrite IH by auto. destruct (bc_shape x y); auto.
Qed.
Lemma bc_shape_comm x : forall y, bc_shape x y = bc_shape y x.
Proof.
  induction x as [|a x IH]; intros [|b y]; cbn; auto. rewrite (Nat.eqb_sym b a).
  replace (((a =? b) || (b =? 1)) || (a =? 1)) with (((a =? b) || (a =? 1)) || (b =? 1)) by (destruct (a =? b), (a =? 1), (b =? 1); auto).
  destruct (((a =? b) || (a =? 1)) || (b =? 1)) eqn:E; auto. rewrite (IH y). destruct (bc_shape y x); auto. do 2 f_equal.
  destruct (Nat.eqb_spec a b), (Nat.eqb_spec a 1), (Nat.eqb_spec b 1); cbn in E; try discriminate; lia.
Qed.
Lemma bc_shape_all x : forall y, length x = length y -> Forall2 (fun a b => ((a =? b) || (a =? 1) || (b =? 1)) = true) x y ->
  bc_shape x y = Some (map2 (fun a b => if a =? 1 then b else a) x y).
Proof.
  induction x as [|a x IH]; intros y Hl H; inversion H; subst; auto. cbn. rewrite H2. rewrite IH by (auto; cbn in Hl; lia). reflexivity.
Qed.
Lemma shape_suffix S L : Forall2 wk S L -> forall i, in_range (lens (map2 bleg S L)) i = true ->
  Forall2 (fun a b => ((a =? b) || (a =? 1) || (b =? 1)) = true) (pick 0 S (map2 sel S i)) (pick 0 L (map2 sel L i)) /\
  pick 0 (map2 bleg S L) i = map2 (fun a b => if a =? 1 then b else a) (pick 0 S (map2 sel S i)) (pick 0 L (map2 sel L i)).
Proof.
  induction 1 as [|a b S L H F IH]; intros [|i ix] Hi; try discriminate; [cbn; auto|].
  cbn [map2 lens map] in Hi. apply in_range_cons in Hi as [Hi Hx]. destruct (IH _ Hx) as [H1 H2].
  destruct (size1 H Hi) as [G1 G2]. cbn [map2 pick]. split; [apply Forall2_cons; auto|]. rewrite G2, H2. reflexivity.
Qed.
Lemma F2_length A B (P : A -> B -> Prop) l m : Forall2 P l m -> length l = length m.
Proof. induction 1; cbn; auto. Qed.
Lemma Forall2_rev' A B (P : A -> B -> Prop) l m : Forall2 P l m -> Forall2 P (rev l) (rev m).
Proof. induction 1; cbn; auto. apply Forall2_app; auto. Qed.
Lemma sel_all P i : in_range (lens P) i = true -> map2 (@sel nat) P i = i.
Proof.
  revert i; induction P as [|p P IH]; intros [|i ix] H; try discriminate; auto. cbn [lens map] in H. apply in_range_cons in H as [H1 H2].
  cbn. rewrite IH by auto. rewrite sel_in by auto. auto.
Qed.
(** The whole result shape. *)
Lemma shape_all P S L : Forall2 wk S L -> forall p i, in_range (lens P) p = true -> in_range (lens (map2 bleg S L)) i = true ->
  bc_shape (rev (pick 0 (P ++ S) (p ++ map2 sel S i))) (rev (pick 0 L (map2 sel L i))) = Some (rev (pick 0 (P ++ map2 bleg S L) (p ++ i))).
Proof.
  intros F p i Hp Hi. destruct (shape_suffix F _ Hi) as [H1 H2]. pose proof (F2_length H1) as Hl.
  assert (Hpl : length p = length P) by (apply in_range_length in Hp; unfold lens in Hp; rewrite map_length in Hp; auto).
  rewrite !pick_app by auto. rewrite !rev_app_distr. rewrite bc_shape_pre by (rewrite !rev_length; auto).
  rewrite bc_shape_all; [|rewrite !rev_length; auto|apply Forall2_rev'; auto]. rewrite H2, map2_rev by auto. reflexivity.
Qed.

(** * Quantities *)
Section Q.
  Variable G : abgroup.
  Lemma zip_same (l : list G) : forall m, length l = length m -> bc_zip l m = Ok (map2 (qop G) l m).
  Proof.
    induction l as [|x l IH]; intros m H; [destruct m; try discriminate; reflexivity|]. destruct m as [|y m]; try discriminate.
    cbn [length] in H. destruct m as [|z m].
    - destruct l; try discriminate. reflexivity.
    - cbn [bc_zip map2]. rewrite IH by (cbn in *; lia). reflexivity.
  Qed.
  Lemma zip_one (l : list G) y : bc_zip l [y] = Ok (map (fun x => qop G x y) l).
  Proof. induction l as [|x l IH]; [reflexivity|]. cbn [bc_zip map]. rewrite IH. reflexivity. Qed.
  Lemma bqleg_length (a b : list G) : length (bqleg a b) = if length a =? 1 then length b else length a.
  Proof. unfold bqleg. rewrite map_length, seq_length. auto. Qed.
  Lemma bqleg_nth (a b : list G) i : i < length (bqleg a b) -> nth i (bqleg a b) (qe G) = qop G (nth (sel a i) a (qe G)) (nth (sel b i) b (qe G)).
  Proof.
    intros H. rewrite bqleg_length in H. unfold bqleg. set (F := fun i => _). erewrite nth_indep; [|rewrite map_length, seq_length; auto].
    instantiate (1 := F 0). rewrite map_nth, seq_nth by auto. reflexivity.
  Qed.
  Lemma nth_map2 A B C (f : A -> B -> C) da db dc l : forall m i, length l = length m -> i < length l -> nth i (map2 f l m) dc = f (nth i l da) (nth i m db).
  Proof. induction l as [|x l IH]; intros [|y m] [|i] H Hi; cbn in *; try lia; auto. apply IH; lia. Qed.
  Lemma leg_len (a : list nat) (qa : list G) : length qa = length a -> a = [1] -> exists q, qa = [q].
  Proof. intros H ->. destruct qa as [|q [|]]; try discriminate. eauto. Qed.
  Lemma leg_ok (a b : list nat) (qa qb : list G) : good a b -> length qa = length a -> length qb = length b ->
    bc_leg (b, qb) (a, qa) = Ok (bleg a b, bqleg qa qb) /\ length (bqleg qa qb) = length (bleg a b) /\
    (if bc_one b || bc_one a then Nat.max (length b) (length a) else length a) = length (bleg a b) /\
    bc_mask b a = Ok (bc_one b, bc_one a).
  Proof.
    intros Hg Ha Hb.
    assert (K : forall l m : list G, length l = length m -> rev (map2 (qop G) (rev l) (rev m)) = map2 (qop G) l m).
    { intros l m H. rewrite map2_rev by (rewrite !rev_length; auto). rewrite !rev_involutive. auto. }
    unfold bc_leg, bc_mask. cbn [fst snd]. destruct Hg as [->|[[-> Hn]|[-> Hn]]].
    - rewrite Nat.ltb_irrefl, Nat.eqb_refl, andb_false_r. cbn [fst snd]. rewrite zip_same by (rewrite !rev_length; lia). cbn [rbind].
      rewrite K by lia. rewrite bleg_same, bqleg_length, Nat.max_id. repeat split; auto.
      + do 2 f_equal. apply nth_ext with (d := qe G) (d' := qe G); [rewrite bqleg_length, map2_length by lia; destruct (_ =? 1); lia|].
        intros i Hi. rewrite map2_length in Hi by lia. rewrite bqleg_nth by (rewrite bqleg_length; destruct (_ =? 1); lia).
        rewrite (nth_map2 _ (qe G) (qe G)) by lia. rewrite !sel_in by lia. apply qop_comm.
      + destruct (_ =? 1); lia.
      + destruct (_ || _); auto.
    - destruct (leg_len _ Ha eq_refl) as [y ->]. cbn [length] in *.
      replace (length b <? 1) with false by (symmetry; apply Nat.ltb_ge; destruct b; [congruence|cbn; lia]).
      cbn [fst snd rev app]. rewrite zip_one. cbn [rbind]. rewrite <- map_rev, rev_involutive, bleg_1. cbn. rewrite orb_true_r. cbn [andb negb].
      assert (Hb1 : 1 <= length b) by (destruct b; [congruence|cbn; lia]).
      split; [|split; [rewrite bqleg_length; auto|split; [lia|reflexivity]]].
      do 2 f_equal. apply nth_ext with (d := qe G) (d' := qe G); [rewrite bqleg_length; cbn; rewrite map_length; auto|].
      intros i Hi. rewrite map_length in Hi. rewrite bqleg_nth by (rewrite bqleg_length; cbn; auto). change (nth (sel [y] i) [y] (qe G)) with y.
      erewrite nth_indep; [|rewrite map_length; auto]. instantiate (1 := qop G (qe G) y). rewrite (map_nth (fun x => qop G x y)).
      rewrite (sel_in qb) by auto. apply qop_comm.
    - destruct (leg_len _ Hb eq_refl) as [y ->]. cbn [length] in *.
      replace (1 <? length a) with true by (symmetry; apply Nat.ltb_lt; auto).
      cbn [fst snd rev app]. rewrite zip_one. cbn [rbind]. rewrite <- map_rev, rev_involutive, bleg_r1. change (bc_one [1]) with true. cbn [negb andb orb].
      rewrite bqleg_length. replace (length qa =? 1) with false by (symmetry; apply Nat.eqb_neq; lia).
      split; [|split; [auto|split; [lia|reflexivity]]].
      do 2 f_equal. apply nth_ext with (d := qe G) (d' := qe G).
      { rewrite bqleg_length, map_length. replace (length qa =? 1) with false by (symmetry; apply Nat.eqb_neq; lia). auto. }
      intros i Hi. rewrite map_length in Hi. rewrite bqleg_nth.
      2:{ rewrite bqleg_length. replace (length qa =? 1) with false by (symmetry; apply Nat.eqb_neq; lia). auto. }
      erewrite nth_indep; [|rewrite map_length; auto]. instantiate (1 := qop G (qe G) y). rewrite (map_nth (fun x => qop G x y)).
      rewrite (sel_in qa) by auto. reflexivity.
  Qed.
  (** Product of the quantities of a block of the result. *)
  Lemma qprod_suffix S L : Forall2 wk S L -> forall (QS QL : list (list G)) i, lens QS = lens S -> lens QL = lens L ->
    in_range (lens (map2 bleg S L)) i = true ->
    (forall d, d < length S -> length (nth d (map2 bqleg QS QL) []) = length (nth d (map2 bleg S L) [])) ->
    qprod G (pick (qe G) (map2 bqleg QS QL) i) = qop G (qprod G (pick (qe G) QS (map2 sel S i))) (qprod G (pick (qe G) QL (map2 sel L i))).
  Proof.
    induction 1 as [|a b S L H F IH]; intros [|qa QS] [|qb QL] [|i ix] H1 H2 Hi Hd; try discriminate; [cbn; symmetry; apply qop_e_l|].
    cbn [map2 lens map] in *. apply in_range_cons in Hi as [Hi Hx]. injection H1 as H1 H1'. injection H2 as H2 H2'.
    cbn [pick]. cbn [qprod fold_right]. fold (qprod G (pick (qe G) (map2 bqleg QS QL) ix)).
    fold (qprod G (pick (qe G) QS (map2 sel S ix))). fold (qprod G (pick (qe G) QL (map2 sel L ix))).
    rewrite IH; auto.
    2:{ intros d Hl. apply (Hd (Datatypes.S d)). cbn; lia. }
    pose proof (Hd 0 ltac:(cbn; lia)) as H0. cbn [nth] in H0.
    rewrite bqleg_nth by lia. unfold sel. rewrite <- H1, <- H2. fold (sel qa i) (sel qb i).
    rewrite !qop_assoc. f_equal. rewrite <- !qop_assoc. f_equal. apply qop_comm.
  Qed.
End Q.

(** * The map built by the loop *)
Lemma rfold_nested X A B (F : X -> A -> B -> result X) la : forall lb s,
  rfold (fun s b => rfold (fun s a => F s a b) la s) lb s = rfold (fun s p => F s (fst p) (snd p)) (flat_map (fun b => map (fun a => (a, b)) la) lb) s.
Proof.
  assert (K : forall b l s, rfold (fun s a => F s a b) l s = rfold (fun s p => F s (fst p) (snd p)) (map (fun a => (a, b)) l) s).
  { intros b. induction l as [|a l IH]; intros s; cbn; auto. destruct (F s a b); cbn; auto. }
  induction lb as [|b lb IH]; intros s; cbn; auto. rewrite rfold_app, <- K.
  destruct (rfold (fun s a => F s a b) la s); cbn; auto.
Qed.
Section M.
  Variable V : Type.
  Notation KO := key_order_idx.
  Notation entry := (list nat * V)%type.
  Definition emp (acc : list entry) (x : entry) := fst (fm_emplace_hint lexb acc (length acc) x).
  Lemma emp_spec (l : list entry) k v : sorted lexb l -> sorted lexb (emp l (k, v)) /\
    forall k', assoc leqb k' (emp l (k, v)) = match assoc leqb k' l with Some w => Some w | None => if leqb k k' then Some v else None end.
  Proof.
    intros HS. unfold emp. destruct (@hint_ok _ _ _ _ KO l (length l) (k, v) HS) as [_ ->]; [lia|left; reflexivity|].
    destruct (fm_insert_spec KO k v HS) as (l' & i & b & E & S4 & Hb & HA). rewrite E. cbn [fst]. split; auto.
    intros k'. rewrite HA. destruct (assoc leqb k l) eqn:Ek; subst b.
    - destruct (leqb k k') eqn:El; [apply leqb_eq in El; subst; rewrite Ek; auto|]. destruct (assoc leqb k' l); auto.
    - destruct (leqb k k') eqn:El; [apply leqb_eq in El; subst; rewrite Ek; auto|]. destruct (assoc leqb k' l); auto.
  Qed.
  Lemma fold_emp (kvs : list entry) : forall acc, sorted lexb acc -> sorted lexb (fold_left emp kvs acc) /\
    forall k, assoc leqb k (fold_left emp kvs acc) = match assoc leqb k acc with Some w => Some w | None => assoc leqb k kvs end.
  Proof.
    induction kvs as [|[k v] kvs IH]; intros acc HS; cbn [fold_left]; [split; auto; intros; destruct (assoc leqb k acc); auto|].
    destruct (emp_spec k v HS) as [H1 H2]. destruct (IH _ H1) as [H3 H4]. split; auto. intros k'. rewrite H4, H2.
    destruct (assoc leqb k' acc); auto. cbn. destruct (leqb k k'); auto.
  Qed.
  Lemma assoc_fun (l : list entry) k v : In (k, v) l -> (forall v', In (k, v') l -> v' = v) -> assoc leqb k l = Some v.
  Proof.
    induction l as [|[k' v'] l IH]; intros H H'; [destruct H|]. cbn. destruct (leqb k' k) eqn:E.
    - apply leqb_eq in E. subst. f_equal. apply H'. left; auto.
    - destruct H as [H|H]; [injection H as <- <-; rewrite leqb_refl in E; discriminate|]. apply IH; auto. intros; apply H'; right; auto.
  Qed.
  Lemma assoc_no (l : list entry) k : (forall v, ~ In (k, v) l) -> assoc leqb k l = None.
  Proof.
    intros H. destruct (assoc leqb k l) eqn:E; auto. apply (assoc_In KO) in E. destruct (H _ E).
  Qed.
End M.
