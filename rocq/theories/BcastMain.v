From Verif Require Import Base Quantity QuantityProofs FlatMap SpecFlatMap FlatMapProofs FlatMapThms Ring Index SpecIndex IndexProofs LegsProofs
  Dense BTensor SpecBTensor BTensorProofs BTensorThms TensordotThms ViewProofs Bcast SpecBcast BcastProofs BcastThms.
From Coq Require Import Lia.
Set Implicit Arguments.

Lemma wk_sym a b : wk a b -> wk b a.
Proof. unfold wk. intuition auto. Qed.
Lemma bleg_sym a b : wk a b -> bleg a b = bleg b a.
Proof. intros [->|[->| ->]]; auto; rewrite ?bleg_1, ?bleg_r1; auto. Qed.
Lemma map2_flip X (f : X -> X -> X) (P : X -> X -> Prop) l m : Forall2 P l m -> (forall x y, P x y -> f x y = f y x) -> map2 f l m = map2 f m l.
Proof. intros H K. induction H; cbn; auto. rewrite K by auto. f_equal; auto. Qed.
Lemma map2_repeat_r X (f : X -> X -> X) y l : (forall x, f x y = x) -> map2 f l (repeat y (length l)) = l.
Proof. intros K. induction l; cbn; auto. rewrite K. f_equal; auto. Qed.
Lemma F2_nth X (P : X -> X -> Prop) d l : forall m, length l = length m -> (forall i, i < length l -> P (nth i l d) (nth i m d)) -> Forall2 P l m.
Proof.
  induction l as [|x l IH]; intros [|y m] H K; try discriminate; constructor; [apply (K 0); cbn; lia|].
  apply IH; [cbn in H; lia|]. intros i Hi. apply (K (S i)). cbn; lia.
Qed.
Lemma pad_length n L : length L <= n -> length (pad n L) = n.
Proof. intros H. unfold pad. rewrite app_length, repeat_length. lia. Qed.
Lemma pad_full n L : length L = n -> pad n L = L.
Proof. intros <-. unfold pad. rewrite Nat.sub_diag. reflexivity. Qed.
Lemma qpad_full (G : abgroup) n (L : list (list G)) : length L = n -> qpad n L = L.
Proof. intros <-. unfold qpad. rewrite Nat.sub_diag. reflexivity. Qed.
Lemma skipn_pad n L : skipn (n - length L) (pad n L) = L.
Proof. unfold pad. rewrite skipn_app, repeat_length, Nat.sub_diag. rewrite skipn_all2 by (rewrite repeat_length; lia). reflexivity. Qed.
Lemma bqleg_sym (G : abgroup) (qa qb : list G) : (length qa = length qb \/ length qa = 1 \/ length qb = 1) -> bqleg qa qb = bqleg qb qa.
Proof.
  intros H. unfold bqleg. replace (if length qb =? 1 then length qa else length qb) with (if length qa =? 1 then length qb else length qa).
  - apply map_ext. intros i. apply qop_comm.
  - destruct (Nat.eqb_spec (length qa) 1), (Nat.eqb_spec (length qb) 1); lia.
Qed.
Lemma bqleg_e (G : abgroup) (qa : list G) : bqleg qa [qe G] = qa.
Proof.
  unfold bqleg. apply nth_ext with (d := qe G) (d' := qe G); rewrite map_length, seq_length; cbn [length].
  - destruct (Nat.eqb_spec (length qa) 1); auto.
  - intros i Hi. set (F := fun i => _). erewrite nth_indep; [|rewrite map_length, seq_length; auto]. instantiate (1 := F 0).
    rewrite map_nth, seq_nth by auto. unfold F. cbn [plus]. change (sel [qe G] i) with 0. cbn [nth]. rewrite qop_e_r.
    unfold sel. destruct (Nat.eqb_spec (length qa) 1); auto. replace i with 0 by lia. auto.
Qed.

(** * Positions in the dense form *)
Notation g1 := (fun s x => if s =? 1 then 0 else x).
Lemma skipn_map2 X Y Z (f : X -> Y -> Z) q : forall l m, skipn q (map2 f l m) = map2 f (skipn q l) (skipn q m).
Proof.
  induction q as [|q IH]; intros [|x l] [|y m]; cbn; auto. destruct (skipn q l); auto.
Qed.
Lemma skipn_pick X (d : X) q : forall L b, skipn q (pick d L b) = pick d (skipn q L) (skipn q b).
Proof. induction q as [|q IH]; intros [|x l] [|y m]; cbn; auto. destruct (skipn q l); auto. Qed.
Lemma skipn_place q : forall L b o, skipn q (place L b o) = place (skipn q L) (skipn q b) (skipn q o).
Proof.
  induction q as [|q IH]; intros [|x l] [|y m] [|z o]; cbn; auto; try (destruct (skipn q l); auto; destruct (skipn q m); auto; fail).
Qed.
Lemma firstn_sum_le i (l : list nat) : i < length l -> sum_list (firstn i l) + nth i l 0 <= sum_list l.
Proof.
  revert i; induction l as [|x l IH]; intros [|i] H; cbn [length] in H; try lia; cbn [firstn nth]; rewrite ?sum_list_cons; cbn; try lia.
  specialize (IH i ltac:(lia)). lia.
Qed.
Lemma place1 a b i o : wk a b -> i < length (bleg a b) -> o < nth i (bleg a b) 0 ->
  (if sum_list a =? 1 then 0 else sum_list (firstn i (bleg a b)) + o) = sum_list (firstn (sel a i) a) + (if nth (sel a i) a 0 =? 1 then 0 else o).
Proof.
  intros Hw Hi Ho. destruct (leqb a [1]) eqn:E; [apply leqb_eq in E; subst; reflexivity|].
  assert (EL : bleg a b = a). { apply leqb_neq in E. apply bleg_n; auto. }
  rewrite EL in *. rewrite sel_in by auto. pose proof (firstn_sum_le _ Hi).
  destruct (Nat.eqb_spec (sum_list a) 1), (Nat.eqb_spec (nth i a 0) 1); lia.
Qed.
Lemma place_all X Y : Forall2 wk X Y -> forall b o, in_range (lens (map2 bleg X Y)) b = true -> in_range (pick 0 (map2 bleg X Y) b) o = true ->
  map2 g1 (tots X) (place (map2 bleg X Y) b o) = place X (map2 sel X b) (map2 g1 (pick 0 X (map2 sel X b)) o).
Proof.
  induction 1 as [|x y X Y H F IH]; intros [|i b] [|j o] Hb Ho; try discriminate; auto.
  cbn [map2 lens map] in Hb. apply in_range_cons in Hb as [Hi Hb]. cbn [map2 pick] in Ho. apply in_range_cons in Ho as [Hj Ho].
  cbn [map2 place tots map pick]. rewrite (place1 H Hi Hj). f_equal. apply IH; auto.
Qed.
Lemma tot1 a b : wk a b -> let x := sum_list a in let y := sum_list b in
  ((x =? y) || (x =? 1) || (y =? 1)) = true /\ sum_list (bleg a b) = if x =? 1 then y else x.
Proof.
  intros [->|[->| ->]]; cbv zeta.
  - rewrite bleg_same, Nat.eqb_refl. destruct (_ =? 1); auto.
  - rewrite bleg_1. change (sum_list [1]) with 1. cbn. rewrite orb_true_r. auto.
  - rewrite bleg_r1. change (sum_list [1]) with 1. rewrite orb_true_r. split; auto. destruct (Nat.eqb_spec (sum_list a) 1); auto.
Qed.
Lemma bc_ones x : bc_shape x (repeat 1 (length x)) = Some x.
Proof. induction x as [|a x IH]; cbn; auto. rewrite IH, orb_true_r. destruct (Nat.eqb_spec a 1); subst; auto. Qed.
Lemma bc_pad1 x z : forall y, length x = length y -> bc_shape (x ++ z) (y ++ repeat 1 (length z)) = bc_shape (x ++ z) y.
Proof.
  induction x as [|a x IH]; intros [|b y] H; try discriminate; cbn [app]; [rewrite bc_ones; destruct z; auto|].
  cbn. rewrite IH by auto. reflexivity.
Qed.
Lemma rev_ones n : rev (repeat 1 n) = repeat 1 n.
Proof. induction n as [|n IH]; auto. cbn. rewrite IH. clear. induction n; cbn; auto. f_equal; auto. Qed.
Lemma bc_pad (a b : list nat) : length b <= length a -> bc_shape (rev a) (rev (repeat 1 (length a - length b) ++ b)) = bc_shape (rev a) (rev b).
Proof.
  intros H. set (q := length a - length b). rewrite rev_app_distr, rev_ones.
  rewrite <- (firstn_skipn q a), rev_app_distr. replace q with (length (rev (firstn q a))) at 3 by (rewrite rev_length, firstn_length; lia).
  apply bc_pad1. rewrite !rev_length, skipn_length. lia.
Qed.
Lemma bc_tots X Y : Forall2 wk X Y -> bc_shape (rev (tots X)) (rev (tots Y)) = Some (rev (tots (map2 bleg X Y))).
Proof.
  intros F. assert (K : Forall2 (fun a b => ((a =? b) || (a =? 1) || (b =? 1)) = true) (tots X) (tots Y) /\
    tots (map2 bleg X Y) = map2 (fun a b => if a =? 1 then b else a) (tots X) (tots Y)).
  { induction F as [|x y X Y H F [I1 I2]]; [cbn; auto|]. destruct (tot1 H) as [H1 H2]. cbn [tots map map2]. split; [constructor; auto|]. rewrite H2. f_equal. exact I2. }
  destruct K as [K1 K2]. pose proof (F2_length K1). rewrite bc_shape_all; [|rewrite !rev_length; auto|apply Forall2_rev'; auto].
  rewrite <- map2_rev, K2 by auto. auto.
Qed.
Lemma tots_pad n L : tots (pad n L) = repeat 1 (n - length L) ++ tots L.
Proof. unfold tots, pad. rewrite map_app. f_equal. induction (n - length L); cbn; auto. f_equal; auto. Qed.
Lemma bc_tots_pad LA LB : let n := Nat.max (length LA) (length LB) in Forall2 wk (pad n LA) (pad n LB) ->
  bc_shape (rev (tots LA)) (rev (tots LB)) = Some (rev (tots (map2 bleg (pad n LA) (pad n LB)))).
Proof.
  intros n F. rewrite <- bc_tots by auto. rewrite !tots_pad. assert (T : forall L, length (tots L) = length L) by (intros; apply map_length).
  destruct (Nat.le_gt_cases (length LB) (length LA)) as [H|H].
  - replace (n - length LA) with 0 by (unfold n; lia). cbn [repeat app]. replace (n - length LB) with (length (tots LA) - length (tots LB)) by (rewrite !T; unfold n; lia).
    rewrite bc_pad by (rewrite !T; lia). auto.
  - replace (n - length LB) with 0 by (unfold n; lia). cbn [repeat app]. rewrite (bc_shape_comm (rev (_ ++ _))), (bc_shape_comm (rev (tots LA))).
    replace (n - length LA) with (length (tots LB) - length (tots LA)) by (rewrite !T; unfold n; lia). rewrite bc_pad by (rewrite !T; lia). auto.
Qed.
(** One side, in terms of the unpadded dimensions. *)
Lemma proj_side n LA X : length LA <= n -> Forall2 wk (pad n LA) X -> forall b o, in_range (lens (map2 bleg (pad n LA) X)) b = true ->
  in_range (pick 0 (map2 bleg (pad n LA) X) b) o = true ->
  bproj (tots LA) (place (map2 bleg (pad n LA) X) b o) = place LA (bsel LA b) (bproj (pick 0 LA (bsel LA b)) o) /\
  in_range (lens LA) (bsel LA b) = true /\ in_range (pick 0 LA (bsel LA b)) (bproj (pick 0 LA (bsel LA b)) o) = true.
Proof.
  intros Hn F b o Hb Ho. pose proof (place_all F _ _ Hb Ho) as E. pose proof (F2_length F) as LX. rewrite pad_length in LX by auto.
  pose proof (in_range_length _ _ Hb) as L1. rewrite lens_length, map2_length, pad_length in L1 by (rewrite ?pad_length; auto).
  pose proof (in_range_length _ _ Ho) as L2. rewrite pick_length in L2 by (rewrite map2_length, ?pad_length by (rewrite ?pad_length; auto); auto).
  rewrite map2_length, pad_length in L2 by (rewrite ?pad_length; auto).
  apply (f_equal (skipn (n - length LA))) in E. rewrite skipn_map2, (skipn_place _ (pad n LA)), !skipn_map2, skipn_pick, skipn_map2, skipn_pad in E.
  assert (ES : skipn (n - length LA) (tots (pad n LA)) = tots LA).
  { rewrite tots_pad, skipn_app, repeat_length, Nat.sub_diag, skipn_all2 by (rewrite repeat_length; lia). reflexivity. }
  rewrite ES in E. assert (E1 : bsel LA b = map2 sel LA (skipn (n - length LA) b)) by (unfold bsel; rewrite L1; auto).
  assert (E2 : bproj (pick 0 LA (bsel LA b)) o = map2 g1 (pick 0 LA (bsel LA b)) (skipn (n - length LA) o)).
  { unfold bproj. rewrite L2, pick_length; auto. rewrite E1, map2_length; auto. rewrite skipn_length. lia. }
  split.
  - rewrite E2, E1, <- E. unfold bproj. rewrite place_length by (rewrite map2_length, ?pad_length by (rewrite ?pad_length; auto); auto).
    rewrite map2_length, pad_length by (rewrite ?pad_length; auto). unfold tots at 2. rewrite map_length. auto.
  - rewrite E2. clear E ES E2. set (q := n - length LA) in *.
    assert (K : forall X Y : list (list nat), Forall2 wk X Y -> forall b o, in_range (lens (map2 bleg X Y)) b = true -> in_range (pick 0 (map2 bleg X Y) b) o = true ->
       in_range (lens X) (map2 sel X b) = true /\ in_range (pick 0 X (map2 sel X b)) (map2 g1 (pick 0 X (map2 sel X b)) o) = true).
    { clear. induction 1 as [|x y X Y H F IH]; intros [|i b] [|j o] Hb Ho; try discriminate; auto.
      cbn [map2 lens map] in Hb. apply in_range_cons in Hb as [Hi Hb]. cbn [map2 pick] in Ho. apply in_range_cons in Ho as [Hj Ho].
      destruct (IH _ _ Hb Ho) as [I1 I2]. destruct (fwd1 H Hi) as [S1 _]. cbn [map2 pick lens map]. split; apply in_range_cons; split; auto.
      destruct (leqb x [1]) eqn:E; [apply leqb_eq in E; subst x; rewrite sel_1; exact Nat.lt_0_1|]. apply leqb_neq in E. rewrite (bleg_n y E) in Hi, Hj. rewrite sel_in by auto.
      destruct (Nat.eqb_spec (nth i x 0) 1); lia. }
    destruct (K _ _ F _ _ Hb Ho) as [K1 K2]. rewrite E1.
    assert (Z : forall s x, in_range s x = true -> in_range (skipn q s) (skipn q x) = true).
    { clear. induction q as [|q IH]; intros [|a s] [|c x] H; try discriminate; cbn; auto. apply in_range_cons in H as [_ H]. apply IH; auto. }
    apply Z in K1, K2. unfold q in K1, K2 |- *. unfold lens in K1. rewrite skipn_map, skipn_map2, skipn_pad in K1. rewrite skipn_pick, !skipn_map2, skipn_pick, skipn_map2, skipn_pad in K2. auto.
Qed.

Section T.
  Variable G : abgroup.
  Variable R : ring.
  Notation t := (btensor G R).
  Notation KO := key_order_idx.

  (** From the padded description to the suffix. *)
  Lemma compat_wk n (X Y : list (list nat)) : length X <= n -> length Y <= n -> bc_compat n X Y -> Forall2 wk (pad n X) (pad n Y).
  Proof. intros H1 H2 H. apply F2_nth with (d := []); [rewrite !pad_length; auto|]. rewrite pad_length by auto. intros i Hi. apply H; auto. Qed.
  Lemma compat_good n (X Y : list (list nat)) : length X = n -> length Y <= n -> bc_compat n X Y -> ~ bc_bad n X Y ->
    Forall2 good (skipn (n - length Y) X) Y.
  Proof.
    intros H1 H2 HC HB. apply F2_nth with (d := []); [rewrite skipn_length; lia|]. rewrite skipn_length. intros i Hi.
    rewrite nth_skipn'. set (d := n - length Y + i). assert (Hd : n - length Y <= d < n) by (unfold d; lia).
    pose proof (HC d ltac:(lia)) as HC'. cbv zeta in HC'. rewrite (pad_full _ H1) in HC'.
    assert (EY : nth d (pad n Y) [] = nth i Y []).
    { unfold pad. rewrite app_nth2 by (rewrite repeat_length; lia). rewrite repeat_length. f_equal. unfold d. lia. }
    assert (HB' : ~ ((nth i Y [] = [1] /\ (nth d X [] = [] \/ exists m, m <> 1 /\ nth d X [] = [m])) \/ (nth d X [] = [1] /\ nth i Y [] = []))).
    { intros K. apply HB. exists d. split; auto. cbv zeta. rewrite (pad_full _ H1), EY. exact K. }
    rewrite EY in HC'. revert HC' HB'. generalize (nth d X []) as a, (nth i Y []) as b. intros a b HC' HB'.
    destruct HC' as [->|[->| ->]]; [left; auto|right; left; split; auto; intros ->; apply HB'; auto|].
    destruct a as [|x [|y a]].
    - exfalso. apply HB'. auto.
    - destruct (Nat.eq_dec x 1) as [->|Hx]; [left; auto|]. exfalso. apply HB'. left. eauto.
    - right; right. cbn. split; auto. lia.
  Qed.

  (** The dimensions of the result, in the two orders. *)
  Lemma out_legs (W N : t) : valid W -> valid N -> b_rank N <= b_rank W ->
    let n := b_rank W in let p := b_rank W - b_rank N in
    firstn p (legs W) ++ map2 bleg (skipn p (legs W)) (legs N) = map2 bleg (pad n (legs W)) (pad n (legs N)) /\
    firstn p (qlegs W) ++ map2 bqleg (skipn p (qlegs W)) (qlegs N) = map2 bqleg (qpad n (qlegs W)) (qpad n (qlegs N)).
  Proof.
    intros [MW _] [MN _] Hr n p. pose proof (legs_length MW) as L1. pose proof (legs_length MN) as L2.
    pose proof (qlegs_length MW) as L3. pose proof (qlegs_length MN) as L4.
    rewrite (@pad_full n (legs W)) by auto. rewrite (@qpad_full G n (qlegs W)) by auto. unfold pad, qpad. rewrite L2, L4. change (n - b_rank N) with p.
    split.
    - rewrite <- (firstn_skipn p (legs W)) at 3. rewrite map2_app by (rewrite firstn_length, repeat_length; lia). f_equal.
      pose proof (map2_repeat_r bleg [1] (firstn p (legs W)) bleg_r1) as E. replace (length (firstn p (legs W))) with p in E by (rewrite firstn_length; lia). rewrite E. auto.
    - rewrite <- (firstn_skipn p (qlegs W)) at 3. rewrite map2_app by (rewrite firstn_length, repeat_length; lia). f_equal.
      pose proof (map2_repeat_r bqleg [qe G] (firstn p (qlegs W)) (@bqleg_e G)) as E. replace (length (firstn p (qlegs W))) with p in E by (rewrite firstn_length; lia). rewrite E. auto.
  Qed.
  Lemma out_legs_sym (A B : t) : meta_ok A -> meta_ok B -> let n := Nat.max (b_rank A) (b_rank B) in
    Forall2 wk (pad n (legs A)) (pad n (legs B)) ->
    map2 bleg (pad n (legs A)) (pad n (legs B)) = map2 bleg (pad n (legs B)) (pad n (legs A)) /\
    map2 bqleg (qpad n (qlegs A)) (qpad n (qlegs B)) = map2 bqleg (qpad n (qlegs B)) (qpad n (qlegs A)).
  Proof.
    intros MA MB n F. split; [apply map2_flip with (P := wk); auto; apply bleg_sym|].
    assert (K : forall T : t, meta_ok T -> lens (qpad n (qlegs T)) = lens (pad n (legs T))).
    { intros T MT. unfold lens, qpad, pad. rewrite !map_app. fold (lens (qlegs T)) (lens (legs T)). rewrite qlegs_lens, legs_lens by auto. f_equal.
      rewrite (qlegs_length MT), (legs_length MT). generalize (n - b_rank T). induction n0; cbn; auto. f_equal; auto. }
    apply map2_flip with (P := fun a b => length a = length b \/ length a = 1 \/ length b = 1); [|intros; apply bqleg_sym; auto].
    pose proof (K A MA) as KA. pose proof (K B MB) as KB. revert F KA KB.
    generalize (qpad n (qlegs A)), (qpad n (qlegs B)), (pad n (legs A)), (pad n (legs B)). intros qa qb a b F. revert qa qb.
    induction F as [|x y a b H F IH]; intros [|u qa] [|v qb] KA KB; try discriminate; constructor.
    - cbn in KA, KB. injection KA as -> _. injection KB as -> _. destruct H as [->|[->| ->]]; auto.
    - cbn in KA, KB. injection KA as _ KA. injection KB as _ KB. auto.
  Qed.

  Lemma wide_ok (W N : t) : valid W -> valid N -> b_rank N <= b_rank W ->
    bc_compat (b_rank W) (legs W) (legs N) -> ~ bc_bad (b_rank W) (legs W) (legs N) ->
    Forall2 good (skipn (b_rank W - b_rank N) (legs W)) (legs N).
  Proof.
    intros [MW _] [MN _] Hr HC HB. pose proof (legs_length MW) as L1. pose proof (legs_length MN) as L2.
    rewrite <- L2. apply compat_good; auto. lia.
  Qed.
  Lemma compat_sym n X Y : bc_compat n X Y -> bc_compat n Y X.
  Proof. intros H d Hd. specialize (H d Hd). cbv zeta in *. intuition auto. Qed.

  Theorem op_thm (f : R -> R -> R) (A B : t) : valid A -> valid B -> bc_ok A B -> exists C, broadcast_operation f A B = Ok C /\ bcast_of f A B C.
  Proof.
    intros HA HB [HC Hbad]. set (n := Nat.max (b_rank A) (b_rank B)) in *. unfold broadcast_operation.
    destruct (Nat.leb_spec (b_rank B) (b_rank A)) as [Hr|Hr].
    - assert (En : n = b_rank A) by (unfold n; lia). rewrite En in HC, Hbad.
      pose proof (wide_ok HA HB Hr HC Hbad) as HG. destruct (shape_ok HA HB Hr HG) as [-> _]. cbn [rbind].
      destruct (loop_thm HA HB Hr HG true f) as (bl & E & V & H1 & H2 & H3 & H4 & H5). cbv zeta in E. rewrite E. cbn [rbind].
      rewrite (valid_make V). eexists; split; [reflexivity|]. destruct (out_legs HA HB Hr) as [E1 E2].
      split; [exact V|]. split; [exact H1|]. fold n. rewrite En. split; [rewrite H2; exact E1|]. split; [rewrite H3; exact E2|]. split; auto.
    - assert (En : n = b_rank B) by (unfold n; lia). assert (Hr' : b_rank A <= b_rank B) by lia. rewrite En in HC, Hbad.
      pose proof (wide_ok HB HA Hr' (compat_sym HC) Hbad) as HG. destruct (shape_ok HB HA Hr' HG) as [-> _]. cbn [rbind].
      destruct (loop_thm HB HA Hr' HG false f) as (bl & E & V & H1 & H2 & H3 & H4 & H5). cbv zeta in E. rewrite E. cbn [rbind].
      rewrite (valid_make V). eexists; split; [reflexivity|]. destruct (out_legs HB HA Hr') as [E1 E2].
      assert (F : Forall2 wk (pad n (legs A)) (pad n (legs B))).
      { rewrite En. apply compat_wk; auto; rewrite legs_length by apply HA || apply HB; lia. }
      destruct (out_legs_sym (proj1 HA) (proj1 HB) F) as [S1 S2]. fold n in S1, S2. 
      split; [exact V|]. split; [exact H1|]. fold n. rewrite S1, S2, En. split; [rewrite H2; exact E1|]. split; [rewrite H3; exact E2|]. split; auto.
  Qed.
  Lemma stores_dec (T : t) b : stores T b \/ ~ stores T b.
  Proof. unfold stores. destruct (assoc leqb b (b_blocks T)); [left; eauto|right; intros [x Hx]; discriminate]. Qed.
  Lemma unstored (T : t) b o : ~ stores T b -> bentry T b o = rz.
  Proof. unfold stores, bentry. destruct (assoc leqb b (b_blocks T)) eqn:E; auto. intros H. exfalso. eauto. Qed.
  (** Dense forms, when missing blocks contribute zero. *)
  Theorem op_dense (f : R -> R -> R) (A B C : t) DA DB : valid A -> valid B -> bc_ok A B -> bcast_of f A B C ->
    dense_form A DA -> dense_form B DB ->
    (forall b o, in_range (b_sbd C) b = true -> ~ (stores A (bsel (legs A) b) /\ stores B (bsel (legs B) b)) ->
       f (bentry A (bsel (legs A) b) (bproj (pick 0 (legs A) (bsel (legs A) b)) o))
         (bentry B (bsel (legs B) b) (bproj (pick 0 (legs B) (bsel (legs B) b)) o)) = rz) ->
    exists D, t_zip false f DA DB = Ok D /\ dense_form C D.
  Proof.
    intros HA HB [HC _] (V & H1 & H2 & H3 & H4 & H5) [SA FA] [SB FB] H0. destruct HA as [MA _], HB as [MB _].
    rewrite <- (legs_length MA), <- (legs_length MB) in HC, H2.
    set (n := Nat.max (length (legs A)) (length (legs B))) in *.
    assert (F : Forall2 wk (pad n (legs A)) (pad n (legs B))) by (apply compat_wk; auto; unfold n; lia).
    assert (F' : Forall2 wk (pad n (legs B)) (pad n (legs A))) by (apply compat_wk; auto; try (unfold n; lia); apply compat_sym; auto).
    assert (EL : map2 bleg (pad n (legs B)) (pad n (legs A)) = legs C).
    { rewrite H2. symmetry. apply map2_flip with (P := wk); auto. apply bleg_sym. }
    unfold t_zip. rewrite SA, SB. fold (tots (legs A)) (tots (legs B)). rewrite bc_tots_pad by auto. fold n. rewrite rev_involutive. cbn [andb].
    eexists; split; [reflexivity|]. split; cbn [dsh dv]; [rewrite H2; reflexivity|]. intros b o Hb Ho.
    destruct V as [MC _]. pose proof Hb as Hb'. rewrite <- (legs_lens MC) in Hb'.
    pose proof Hb' as HbA. rewrite H2 in HbA. pose proof Ho as HoA. rewrite H2 in HoA.
    destruct (@proj_side n (legs A) _ ltac:(unfold n; lia) F _ _ HbA HoA) as [PA [RA OA]].
    rewrite <- EL in Hb'. pose proof Ho as HoB. rewrite <- EL in HoB.
    destruct (@proj_side n (legs B) _ ltac:(unfold n; lia) F' _ _ Hb' HoB) as [PB [RB OB]]. rewrite EL in PB. rewrite <- H2 in PA. rewrite PA, PB.
    rewrite FA by (auto; rewrite <- (legs_lens MA); auto). rewrite FB by (auto; rewrite <- (legs_lens MB); auto).
    destruct (stores_dec C b) as [Hs|Hs]; [symmetry; auto|]. rewrite (unstored _ Hs). apply H0; auto. rewrite <- H4; auto.
  Qed.
  Theorem mul_thm (A B : t) DA DB : valid A -> valid B -> bc_ok A B -> dense_form A DA -> dense_form B DB ->
    exists C D, b_mul A B = Ok C /\ bcast_of rmul A B C /\ t_zip false rmul DA DB = Ok D /\ dense_form C D.
  Proof.
    intros HA HB HC FA FB. destruct (op_thm rmul HA HB HC) as (C & E & HO). exists C.
    destruct (op_dense HA HB HC HO FA FB) as (D & ED & FD); eauto.
    intros b o Hb Hs. destruct (stores_dec A (bsel (legs A) b)) as [SA|SA]; [|rewrite (unstored _ SA); apply rmul_0_l].
    destruct (stores_dec B (bsel (legs B) b)) as [SB|SB]; [|rewrite (unstored _ SB); apply rmul_0_r]. tauto.
  Qed.
  (** Comparisons of tensors that store the same blocks. *)
  Theorem compare_thm (cmp : R -> R -> bool) (A B : t) DA DB : valid A -> valid B -> legs A = legs B ->
    cmp rz rz = false -> (forall b, stores A b <-> stores B b) -> dense_form A DA -> dense_form B DB ->
    exists C D, b_compare cmp A B = Ok C /\ bcast_of (fun x y => if cmp x y then ro else rz) A B C /\
      dense_form C D /\ dsh D = dsh DA /\ forall i, in_range (dsh D) i = true -> dv D i = if cmp (dv DA i) (dv DB i) then ro else rz.
  Proof.
    intros HA HB HL Hc Hs FA FB. pose proof (legs_length (proj1 HA)) as LA. pose proof (legs_length (proj1 HB)) as LB. rewrite <- HL in LB.
    assert (HO : bc_ok A B).
    { unfold bc_ok. rewrite <- HL. replace (b_rank B) with (b_rank A) by lia. rewrite Nat.max_id, Nat.leb_refl. split.
      - intros d Hd. left; auto.
      - intros (d & Hd & [[E1 [E2|(m & Hm & E2)]]|[E1 E2]]); congruence. }
    destruct (op_thm (fun x y => if cmp x y then ro else rz) HA HB HO) as (C & E & HB'). exists C.
    destruct (op_dense HA HB HO HB' FA FB) as (D & ED & FD).
    { intros b o Hb Hn. rewrite <- HL in *. rewrite !unstored; [rewrite Hc; auto| |]; intros K; apply Hn; split; auto; apply Hs; auto. }
    exists D. split; auto. split; auto. split; auto. destruct FA as [SA _], FB as [SB _]. rewrite <- HL, <- SA in SB.
    unfold t_zip in ED. rewrite SB in ED. assert (K : forall x, bc_shape x x = Some x).
    { induction x as [|a x IH]; cbn; auto. rewrite Nat.eqb_refl, IH. cbn. destruct (a =? 1); auto. }
    rewrite K, rev_involutive in ED. cbn [andb] in ED. injection ED as <-. cbn [dsh dv]. split; auto. intros i Hi.
    assert (EP : bproj (dsh DA) i = i).
    { unfold bproj. pose proof (in_range_length _ _ Hi) as El. rewrite El, Nat.sub_diag. cbn [skipn].
      revert Hi. clear. revert i. induction (dsh DA) as [|s sh IH]; intros [|x i] Hi; try discriminate; auto.
      apply in_range_cons in Hi as [H1 H2]. cbn. rewrite IH by auto. f_equal. destruct (Nat.eqb_spec s 1); lia. }
    rewrite EP. auto.
  Qed.

  (** In place, [this] not of smaller rank. *)
  Theorem inplace_thm (f : R -> R -> R) (A B : t) : valid A -> valid B -> bc_ok A B -> b_rank B <= b_rank A ->
    broadcast_operation_ f false true A B = broadcast_operation f A B.
  Proof.
    intros HA HB [HC Hbad] Hr. destruct (op_thm f HA HB (Logic.conj HC Hbad)) as (C & EC & _). rewrite EC.
    unfold broadcast_operation in EC. unfold broadcast_operation_. rewrite (proj2 (Nat.leb_le _ _) Hr) in *.
    replace (Nat.max (b_rank A) (b_rank B)) with (b_rank A) in * by lia.
    pose proof (wide_ok HA HB Hr HC Hbad) as HG. destruct (shape_ok HA HB Hr HG) as [Es _]. rewrite Es in *. cbn [rbind] in *.
    set (S := skipn (b_rank A - b_rank B) (legs A)) in *. set (P := firstn (b_rank A - b_rank B) (legs A)).
    destruct (loop_thm HA HB Hr HG true f) as (bl & E & V & _). cbv zeta in E, V. fold S in E. rewrite E in EC. cbn [rbind] in EC. rewrite (valid_make V) in EC. injection EC as <-.
    destruct (forallb _ (masks S (legs B))) eqn:Ecan; [|rewrite E; reflexivity].
    assert (EL : map2 bleg S (legs B) = S).
    { clear - HG Ecan. induction HG as [|a b S L H F IH]; auto. cbn [map2 forallb fst snd] in Ecan. apply andb_prop in Ecan as [E1 E2].
      cbn [map2]. rewrite IH by auto. f_equal. destruct (leqb a [1]) eqn:Ea; [|unfold bleg; rewrite Ea; auto].
      apply leqb_eq in Ea. subst a. change (bc_one [1]) with true in E1. destruct (bc_one b) eqn:Eb; [apply bc_one_iff in Eb; subst; auto|discriminate]. }
    assert (Ez : bc_loop (masks S (legs B)) true (t_zip true f) A B = bc_loop (masks S (legs B)) true (t_zip false f) A B).
    { unfold bc_loop. apply rfold_ext. intros s [kb tb] Hb. apply rfold_ext. intros s' [ka ta] Ha.
      destruct (match_index (masks S (legs B)) ka kb) eqn:Em; auto.
      destruct (@step_ok G R A B HA HB HG true f ((ka, ta), (kb, tb))) as (k & Hk & _ & E2 & E3 & E4 & E5); [apply (proj2 (@in_pairs G R A B true (ka, ta) (kb, tb))); auto|exact Em|].
      cbn [fst snd] in *. rewrite E2. cbn [rbind]. f_equal. rewrite E5. unfold t_zip in *. destruct (bc_shape _ _) as [r|] eqn:Er; [|discriminate].
      cbn [andb] in E5 |- *. injection E5 as E5. rewrite E5. fold S P in Hk, E5 |- *. rewrite EL in *. unfold P, S in *. rewrite firstn_skipn in *.
      assert (Ek : ka = k). { rewrite E3. unfold bsel. pose proof (in_range_length _ _ Hk) as El. rewrite lens_length in El. rewrite El, Nat.sub_diag. cbn [skipn]. apply sel_all; auto. }
      destruct HA as [_ [BA _]]. destruct (BA _ _ Ha) as [_ Sa]. rewrite Sa, Ek, leqb_refl. cbn [negb]. reflexivity. }
    rewrite Ez, E. reflexivity.
  Qed.
End T.

(** * Rejection *)
Lemma rmapM_throw X Y (f : X -> result Y) e l : (forall x, In x l -> f x = Throw e \/ exists y, f x = Ok y) -> (exists x, In x l /\ f x = Throw e) -> rmapM f l = Throw e.
Proof.
  induction l as [|x l IH]; intros H [y [Hy E]]; [destruct Hy|]. cbn. destruct (H x (or_introl eq_refl)) as [->|[z Ez]]; auto. rewrite Ez. cbn.
  rewrite IH; auto; [intros; apply H; right; auto|]. destruct Hy as [<-|Hy]; [congruence|eauto].
Qed.
Section Rej.
  Variable G : abgroup.
  Variable R : ring.
  Notation t := (btensor G R).
  Lemma shape_rejects (N W : t) i : meta_ok N -> meta_ok W -> b_rank N <= b_rank W -> i < b_rank N ->
    let s := nth i (legs N) [] in let l := nth (b_rank W - b_rank N + i) (legs W) [] in
    s <> [1] -> l <> [1] -> length s <> length l -> shape_compute N W = Throw InvalidArgument.
  Proof.
    intros MN MW Hr Hi s l Hs Hl Hn. unfold shape_compute. rewrite !dims_eq by auto.
    pose proof (legs_length MN) as L1. pose proof (legs_length MW) as L2. pose proof (qlegs_length MN) as L3. pose proof (qlegs_length MW) as L4.
    rewrite rmapM_throw with (e := InvalidArgument); auto.
    - intros [s' l'] _. unfold bc_mask. destruct (_ && _); eauto.
    - set (p := b_rank W - b_rank N) in *. exists ((s, nth i (qlegs N) []), (l, nth (p + i) (qlegs W) [])). split.
      + assert (K : nth i (combine (combine (legs N) (qlegs N)) (skipn p (combine (legs W) (qlegs W)))) (([], []), ([], [])) = ((s, nth i (qlegs N) []), (l, nth (p + i) (qlegs W) []))).
        { rewrite combine_nth by (rewrite skipn_length, !combine_length; lia). rewrite nth_skipn', !combine_nth by lia. auto. }
        rewrite <- K. apply nth_In. rewrite combine_length, skipn_length, !combine_length. lia.
      + cbn [fst]. unfold bc_mask. destruct (bc_one s) eqn:E1; [apply bc_one_iff in E1; contradiction|]. destruct (bc_one l) eqn:E2; [apply bc_one_iff in E2; contradiction|].
        cbn [fst snd orb negb andb]. destruct (Nat.eqb_spec (length s) (length l)); [contradiction|reflexivity].
  Qed.
  Theorem rejects_thm (f : R -> R -> R) ip ip' (A B : t) d : valid A -> valid B -> let n := Nat.max (b_rank A) (b_rank B) in d < n ->
    let a := nth d (pad n (legs A)) [] in let b := nth d (pad n (legs B)) [] in a <> [1] -> b <> [1] -> length a <> length b ->
    broadcast_operation f A B = Throw InvalidArgument /\ broadcast_operation_ f ip ip' A B = Throw InvalidArgument.
  Proof.
    intros [MA _] [MB _] n Hd a b Ha Hb Hl. pose proof (legs_length MA) as L1. pose proof (legs_length MB) as L2.
    assert (K : forall T : t, length (legs T) = b_rank T -> b_rank T <= n -> nth d (pad n (legs T)) [] <> [1] ->
      n - b_rank T <= d /\ nth d (pad n (legs T)) [] = nth (d - (n - b_rank T)) (legs T) []).
    { intros T E Hn HT. unfold pad in *. rewrite E in *. destruct (Nat.lt_ge_cases d (n - b_rank T)) as [C|C].
      - exfalso. apply HT. rewrite app_nth1 by (rewrite repeat_length; auto). rewrite (nth_indep _ [] [1]) by (rewrite repeat_length; auto). apply nth_repeat.
      - split; auto. rewrite app_nth2 by (rewrite repeat_length; auto). rewrite repeat_length. auto. }
    destruct (K A L1 ltac:(unfold n; lia) Ha) as [A1 A2]. destruct (K B L2 ltac:(unfold n; lia) Hb) as [B1 B2].
    unfold a, b in *. rewrite A2, B2 in *.
    unfold broadcast_operation, broadcast_operation_. destruct (Nat.leb_spec (b_rank B) (b_rank A)) as [H|H].
    - assert (n = b_rank A) by (unfold n; lia). rewrite (@shape_rejects B A (d - (n - b_rank B))); auto; try lia;
        replace (b_rank A - b_rank B + (d - (n - b_rank B))) with (d - (n - b_rank A)) by lia; auto.
    - assert (n = b_rank B) by (unfold n; lia). rewrite (@shape_rejects A B (d - (n - b_rank A))); auto; try lia;
        replace (b_rank B - b_rank A + (d - (n - b_rank A))) with (d - (n - b_rank B)) by lia; auto.
  Qed.
End Rej.
