(** Lemmas about the edges of chains. *)
From Verif Require Import Base Quantity QuantityProofs FlatMap SpecFlatMap FlatMapProofs Ring Index SpecIndex Dense IndexProofs BTensor SpecBTensor LegsProofs
  BTensorProofs BTensorThms BTensorThms2 BTensorArith Tensordot SpecTensordot TensordotProofs TensordotThms SpecReshape View SpecView ViewProofs ViewThms
  Chain SpecChain ChainProofs ChainThms ChainInst ChainEnd Edges SpecEdges.
Set Implicit Arguments.

(** Shapes of dense tensors. *)
Lemma upd_mid A (a : list A) x b y : upd (a ++ x :: b) (length a) y = a ++ y :: b.
Proof. unfold upd. rewrite firstn_app, Nat.sub_diag, firstn_all, firstn_O, app_nil_r. f_equal. f_equal.
  rewrite skipn_app. replace (S (length a) - length a) with 1 by lia. rewrite skipn_all2 by lia. reflexivity. Qed.
Definition nkept (p : pattern) : nat := length (filter (fun x => match x with None => true | _ => false end) p).
Lemma nkept_zpat p : length (filter (fun a => (a =? -1)%Z) (zpat p)) = nkept p.
Proof.
  unfold nkept, zpat. induction p as [|[a|] p IH]; cbn; auto. rewrite <- IH. destruct (Z.of_nat a =? -1)%Z eqn:E; auto. apply Z.eqb_eq in E. lia.
Qed.
Lemma ts_loop_ok slack p : forall sh K rest, length sh = length p -> length rest = nkept p -> (0 < slack \/ p = [] \/ exists p', p = p' ++ [None]) ->
  ts_loop slack (length K + length rest) (length K) sh (zpat p) (K ++ rest) = Ok (K ++ keep p sh).
Proof.
  induction p as [|x p IH]; intros sh K rest Hs Hr HC.
  { destruct sh; [|discriminate]. cbn in Hr. destruct rest; [|discriminate]. reflexivity. }
  destruct sh as [|s sh]; [discriminate|]. cbn in Hs.
  assert (HC' : 0 < slack \/ p = [] \/ exists p', p = p' ++ [None]).
  { destruct HC as [HC|[HC|[p' HC]]]; [auto|discriminate|]. destruct p as [|y p]; [auto|]. right; right. destruct p' as [|z p']; [discriminate|]. injection HC as _ HC. eauto. }
  cbn [zpat map ts_loop]. fold (zpat p). destruct x as [a|].
  - assert (E : (Z.of_nat a =? -1)%Z = false) by (apply Z.eqb_neq; lia). rewrite E. cbn in Hr.
    destruct rest as [|y rest].
    + destruct HC as [HC|[HC|[p' HC]]]; [|discriminate|].
      * cbn [length]. rewrite Nat.add_0_r. rewrite (proj2 (Nat.ltb_lt _ _)) by lia. rewrite Nat.ltb_irrefl.
        specialize (IH sh K [] ltac:(lia) Hr HC'). cbn [length] in IH. rewrite Nat.add_0_r in IH. rewrite IH. reflexivity.
      * exfalso. destruct p' as [|z p']; [discriminate|]. injection HC as _ ->. clear -Hr. unfold nkept in Hr. rewrite filter_app, app_length in Hr. cbn in Hr. lia.
    + rewrite !(proj2 (Nat.ltb_lt _ _)) by (cbn [length]; lia). rewrite upd_mid.
      change (length K + length (y :: rest)) with (length K + length (s :: rest)). rewrite IH; auto.
  - cbn [Z.eqb]. change (nkept (None :: p)) with (S (nkept p)) in Hr. destruct rest as [|y rest]; [discriminate|].
    rewrite !(proj2 (Nat.ltb_lt _ _)) by (cbn [length]; lia). rewrite upd_mid. cbn [Z.eqb Pos.eqb].
    specialize (IH sh (K ++ [s]) rest ltac:(lia) ltac:(cbn in Hr; lia) HC'). rewrite app_length in IH. cbn [length] in IH |- *.
    rewrite <- !app_assoc in IH. cbn [app] in IH. replace (length K + S (length rest)) with (length K + 1 + length rest) by lia.
    replace (S (length K)) with (length K + 1) by lia. rewrite IH. reflexivity.
Qed.
Lemma ts_loop_ub p : forall sh K rest a, length sh = S (length p) -> length rest = nkept p ->
  ts_loop 0 (length K + length rest) (length K) sh (zpat (p ++ [Some a])) (K ++ rest) = UB.
Proof.
  induction p as [|x p IH]; intros sh K rest a Hs Hr; (destruct sh as [|s sh]; [discriminate|]).
  - cbn in Hr. destruct rest; [|discriminate]. cbn. rewrite !Nat.add_0_r, Nat.ltb_irrefl. reflexivity.
  - cbn in Hs. cbn [app zpat map ts_loop]. fold (zpat (p ++ [Some a])). destruct x as [b|].
    + assert (E : (Z.of_nat b =? -1)%Z = false) by (apply Z.eqb_neq; lia). rewrite E. cbn in Hr. destruct rest as [|y rest].
      * cbn [length]. rewrite !Nat.add_0_r, Nat.ltb_irrefl. reflexivity.
      * rewrite !(proj2 (Nat.ltb_lt _ _)) by (cbn [length]; lia). rewrite upd_mid.
        change (length K + length (y :: rest)) with (length K + length (s :: rest)). apply IH; auto.
    + change (nkept (None :: p)) with (S (nkept p)) in Hr. destruct rest as [|y rest]; [discriminate|].
      rewrite !(proj2 (Nat.ltb_lt _ _)) by (cbn [length]; lia). rewrite upd_mid. cbn [Z.eqb Pos.eqb].
      specialize (IH sh (K ++ [s]) rest a ltac:(lia) ltac:(cbn in Hr; lia)). rewrite app_length in IH. cbn [length] in IH |- *.
      rewrite <- !app_assoc in IH. cbn [app] in IH. replace (length K + S (length rest)) with (length K + 1 + length rest) by lia.
      replace (S (length K)) with (length K + 1) by lia. exact IH.
Qed.
Lemma nkept_0 p : nkept p = 0 <-> ~ In None p.
Proof.
  unfold nkept. induction p as [|[a|] p IH]; cbn; [tauto| |]; [rewrite IH; intuition discriminate|]. split; [discriminate|tauto].
Qed.
Lemma nkept_pos p : 0 < nkept p -> In None p.
Proof. unfold nkept. induction p as [|[a|] p IH]; cbn; [lia|auto|auto]. Qed.
Lemma keep_0 A p (l : list A) : ~ In None p -> keep p l = [].
Proof. revert l. induction p as [|[a|] p IH]; intros [|x l] H; cbn; auto; [apply IH; intros ?; apply H; right; assumption|exfalso; apply H; left; reflexivity]. Qed.
Lemma last_case (p : pattern) : p = [] \/ (exists p', p = p' ++ [None]) \/ exists p' a, p = p' ++ [Some a].
Proof. destruct p as [|x p] using rev_ind; [auto|]. right. destruct x; eauto. Qed.
Lemma ts_ok slack sh p : length sh = length p -> 0 < slack \/ ~ tail_fixed p -> ts_shape_from slack sh (zpat p) = Ok (keep p sh).
Proof.
  intros Hs HC. unfold ts_shape_from. rewrite nkept_zpat. destruct (nkept p =? 0) eqn:E.
  - apply Nat.eqb_eq, nkept_0 in E. rewrite keep_0; auto.
  - apply Nat.eqb_neq in E. pose proof (@ts_loop_ok slack p sh [] (repeat 0 (nkept p)) Hs (repeat_length _ _)) as H. cbn [length app Nat.add] in H.
    rewrite repeat_length in H. apply H. destruct HC as [HC|HC]; [auto|]. destruct (last_case p) as [->|[?|(p' & a & ->)]]; auto.
    exfalso. apply HC. split; [|eauto]. apply nkept_pos. lia.
Qed.
Lemma ts_ub sh p : length sh = length p -> tail_fixed p -> ts_shape_from 0 sh (zpat p) = UB.
Proof.
  intros Hs (HI & p' & a & ->). unfold ts_shape_from. rewrite nkept_zpat. destruct (nkept (p' ++ [Some a]) =? 0) eqn:E; [apply Nat.eqb_eq, nkept_0 in E; tauto|].
  rewrite app_length in Hs. cbn in Hs. pose proof (@ts_loop_ub p' sh [] (repeat 0 (nkept p')) a ltac:(lia) (repeat_length _ _)) as H.
  cbn [length app Nat.add] in H. rewrite repeat_length in H.
  replace (nkept (p' ++ [Some a])) with (nkept p'); [exact H|]. unfold nkept. rewrite filter_app, app_length. cbn. lia.
Qed.

(** Dense chains. *)
Section D.
  Variable R : ring.
  Add Ring Rring : (ring_th R).
  Notation "'sum' x < n , e" := (sumf _ (fun x => e) (seq 0 n)) (at level 69, x name, n at level 68, e at level 69).
  Notation t := (dense R).
  Notation idk := (fun k : nat => k).
  Lemma sum_diag n m (f : nat -> nat -> R) : (sum p < n, sum q < m, rmul (if p =? q then ro else rz) (f p q)) = sum p < Nat.min n m, f p p.
  Proof.
    assert (H : forall p, (sum q < m, rmul (if p =? q then ro else rz) (f p q)) = if p <? m then f p p else rz).
    { intros p. destruct (p <? m) eqn:E; [apply Nat.ltb_lt in E|apply Nat.ltb_ge in E].
      - rewrite <- (sum_delta R (f p) E). apply sumf_ext. intros q Hq. rewrite Nat.eqb_sym. ring.
      - apply sumf_zero. intros q Hq. apply in_seq in Hq. rewrite (proj2 (Nat.eqb_neq p q)) by lia. ring. }
    rewrite (sumf_ext R _ (fun p => if p <? m then f p p else rz) (seq 0 n)) by (intros p _; apply H). clear H.
    induction n as [|n IH]; [reflexivity|]. rewrite seq_S, sumf_app. cbn [Nat.add]. rewrite IH. clear IH. destruct (n <? m) eqn:E; [apply Nat.ltb_lt in E|apply Nat.ltb_ge in E].
    - rewrite !Nat.min_l by lia. rewrite seq_S, sumf_app. cbn [Nat.add]. rewrite !sumf_cons, !sumf_nil. rewrite (proj2 (Nat.ltb_lt n m) E). ring.
    - rewrite !Nat.min_r by lia. rewrite !sumf_cons, !sumf_nil. rewrite (proj2 (Nat.ltb_ge n m) E). ring.
  Qed.

  Definition delta (p q : nat) : R := if p =? q then ro else rz.
  Lemma inner_eye (a b : list t) x y x' y' : inner a b (d_eye x y) (d_eye x' y') = closed_overlap a b (Nat.min x y) (Nat.min x' y').
  Proof.
    unfold inner, closed_overlap, size. cbn [dsh d_eye nth]. rewrite <- (sum_diag x y (fun p q => sum p' < Nat.min x' y', overlap a b p q p' p')).
    apply sumf_ext. intros p _. apply sumf_ext. intros q _. rewrite <- (sum_diag x' y' (fun p' q' => overlap a b p q p' q')).
    rewrite <- sumf_mul_l. apply sumf_ext. intros p' _. rewrite <- sumf_mul_l. apply sumf_ext. intros q' _. cbn [dv d_eye nth]. ring.
  Qed.
  (** The edge of three dimensions: identity on the first and last, one on the middle. *)
  Definition d_edge3 (x o y : nat) : t := mkD [x; o; y] (fun i => delta (nth 0 i 0) (nth 2 i 0)).
  Lemma expectation_edges (a b h : list t) x o y x' o' y' :
    expectation a b h (d_edge3 x o y) (d_edge3 x' o' y') = closed_element a b h (Nat.min x y) o (Nat.min x' y') o'.
  Proof.
    unfold expectation, closed_element, size. cbn [dsh d_edge3 nth].
    rewrite <- (sum_diag x y (fun p r => sum q < o, sum p' < Nat.min x' y', sum q' < o', element a b h p q r p' q' p')).
    apply sumf_ext. intros p _. rewrite sumf_swap. apply sumf_ext. intros r _. rewrite <- sumf_mul_l. apply sumf_ext. intros q _.
    rewrite <- (sum_diag x' y' (fun p' r' => sum q' < o', element a b h p q r p' q' r')).
    rewrite <- sumf_mul_l. apply sumf_ext. intros p' _. rewrite sumf_swap, <- sumf_mul_l. apply sumf_ext. intros r' _. rewrite <- !sumf_mul_l. apply sumf_ext. intros q' _.
    cbn [dv d_edge3 nth]. unfold delta. ring.
  Qed.

  Lemma expectation_deq (a b h : list t) L L' E E' x o y x' o' y' : dsh L = [x; o; y] -> dsh E = [x'; o'; y'] -> deq L L' -> deq E E' ->
    expectation a b h L E = expectation a b h L' E'.
  Proof.
    intros SL SE [SL' VL] [SE' VE]. unfold expectation, size. rewrite <- SL', <- SE', SL, SE. cbn [nth].
    apply sumf_ext. intros p Hp. apply sumf_ext. intros q Hq. apply sumf_ext. intros r Hr. apply sumf_ext. intros p' Hp'. apply sumf_ext. intros q' Hq'. apply sumf_ext. intros r' Hr'.
    rewrite in_seq in *. rewrite VL, VE; [reflexivity|rewrite SE|rewrite SL]; apply in_range3; lia.
  Qed.
  Lemma edge3_deq x y o (f g : list nat -> R) :
    deq (d_permute [0; 2; 1] (d_tdot (mkD [x; y] f) (mkD [o] g) [] [])) (mkD [x; o; y] (fun i => rmul (f [nth 0 i 0; nth 2 i 0]) (g [nth 1 i 0]))).
  Proof.
    split; [reflexivity|]. intros i Hi. destruct i as [|i [|j [|k [|? ?]]]]; cbn in Hi; rewrite ?andb_false_r in Hi; try discriminate.
    cbv -[radd rmul rz rT]. ring.
  Qed.
End D.

(** First and last sites of a chain. *)
Section Ends.
  Variables (T K : Type) (tl : T -> list K) (dual : K -> K).
  Lemma fit_front A a x y : mps_fit tl dual (A :: a) x y -> exists s k, tl A = [dual x; s; k].
  Proof. intros (s & k & E & _). eauto. Qed.
  Lemma back_cons (A : T) a : a <> [] -> back (A :: a) = back a.
  Proof. intros H. destruct a as [|B a]; [congruence|]. cbn. rewrite Nat.sub_0_r. reflexivity. Qed.
  Lemma fit_back : forall a x y, a <> [] -> mps_fit tl dual a x y -> exists A k s, back a = Ok A /\ In A a /\ tl A = [dual k; s; y].
  Proof.
    induction a as [|A a IH]; intros x y N F; [congruence|]. destruct F as (s & k & E & F). destruct a as [|B a].
    - cbn in F. subst k. exists A, x, s. split; [reflexivity|]. split; [left; reflexivity|exact E].
    - destruct (IH k y ltac:(discriminate) F) as (C & k' & s' & E' & I' & T'). exists C, k', s'. rewrite back_cons by discriminate. split; [exact E'|]. split; [right; exact I'|exact T'].
  Qed.
  Lemma op_front A h a b x y : mpo_fit tl dual (A :: h) a b x y -> exists p k s, tl A = [dual x; p; k; s].
  Proof. destruct a as [|? a]; [intros []|]. destruct b as [|? b]; [intros []|]. intros (k & p & p' & E & _). eauto. Qed.
  Lemma op_back : forall h a b x y, h <> [] -> mpo_fit tl dual h a b x y -> exists A k p s, back h = Ok A /\ In A h /\ tl A = [k; p; y; s].
  Proof.
    induction h as [|A h IH]; intros a b x y N F; [congruence|]. destruct a as [|a0 a]; [destruct F|]. destruct b as [|b0 b]; [destruct F|].
    destruct F as (k & p & p' & E & _ & _ & F). destruct h as [|B h].
    - destruct a; [|destruct F]. destruct b; [|destruct F]. cbn in F. subst k. exists A, (dual x), p', (dual p). split; [reflexivity|]. split; [left; reflexivity|exact E].
    - destruct (IH a b k y ltac:(discriminate) F) as (C & k' & q & s' & E' & I' & T'). exists C, k', q, s'. rewrite back_cons by discriminate. split; [exact E'|]. split; [right; exact I'|exact T'].
  Qed.
  Lemma mpo_len : forall h a b x y, mpo_fit tl dual h a b x y -> length h = length a /\ length h = length b.
  Proof.
    induction h as [|A h IH]; intros [|a0 a] [|b0 b] x y F; try destruct F; try (cbn; auto; fail). destruct H as (p & p' & _ & _ & _ & F). apply IH in F. cbn. lia.
  Qed.
End Ends.

Section Dense.
  Variable R : ring.
  Notation t := (dense R).
  Notation idk := (fun k : nat => k).
  Add Ring Rring2 : (ring_th R).
  Variable slack : nat.
  Hypothesis slack_pos : 0 < slack.
  Lemma identity_edge_left (A B : t) x s k y s' k' : dsh A = [x; s; k] -> dsh B = [y; s'; k'] -> d_identity_edge slack A B [-1; 0; 0]%Z = Ok (d_eye x y).
  Proof.
    intros EA EB. unfold d_identity_edge. change ([-1; 0; 0]%Z) with (zpat [None; Some 0; Some 0]). rewrite EA, EB, !ts_ok by auto. reflexivity.
  Qed.
  Lemma identity_edge_right (A B : t) x s k y s' k' : dsh A = [k; s; x] -> dsh B = [k'; s'; y] -> d_identity_edge slack A B [0; 0; -1]%Z = Ok (d_eye x y).
  Proof.
    intros EA EB. unfold d_identity_edge. change ([0; 0; -1]%Z) with (zpat [Some 0; Some 0; None]). rewrite EA, EB, !ts_ok by auto. reflexivity.
  Qed.
  Lemma same_phys_len (a : list t) : forall b, same_phys (@dsh R) a b -> length a = length b.
  Proof. induction a as [|A a IH]; intros [|B b] H; try destruct H; auto. cbn. f_equal. auto. Qed.
  Lemma d_default (a b : list t) x y x' y' : a <> [] -> mps_fit (@dsh R) idk a x x' -> mps_fit (@dsh R) idk b y y' -> same_phys (@dsh R) a b ->
    exists s, d_contract_default slack a b = Ok s /\ dsh s = [] /\ dv s [] = closed_overlap a b (Nat.min x y) (Nat.min x' y').
  Proof.
    intros N Fa Fb Fs. pose proof (same_phys_len _ _ Fs) as L. assert (Nb : b <> []) by (destruct b; [destruct a; [congruence|discriminate]|discriminate]).
    destruct (@fit_back _ _ (@dsh R) idk a x x' N Fa) as (A1 & k1 & s1 & EA1 & _ & TA1). destruct (@fit_back _ _ (@dsh R) idk b y y' Nb Fb) as (B1 & l1 & t1 & EB1 & _ & TB1).
    destruct a as [|A0 a]; [congruence|]. destruct b as [|B0 b]; [congruence|].
    destruct (@fit_front _ _ (@dsh R) idk A0 a x x' Fa) as (s0 & k0 & TA0). destruct (@fit_front _ _ (@dsh R) idk B0 b y y' Fb) as (t0 & l0 & TB0).
    unfold d_contract_default. cbn [front rnth nth_error rbind]. rewrite (@identity_edge_left A0 B0 x s0 k0 y t0 l0 TA0 TB0). cbn [rbind].
    rewrite EA1, EB1. cbn [rbind]. rewrite (@identity_edge_right A1 B1 x' s1 k1 y' t1 l1 TA1 TB1). cbn [rbind].
    destruct (@d_contract R (A0 :: a) (B0 :: b) (d_eye x y) (d_eye x' y') x y x' y' eq_refl eq_refl Fa Fb Fs) as (s & E & S & V).
    exists s. split; [exact E|]. split; [exact S|]. rewrite V. apply inner_eye.
  Qed.
  Lemma edge_with_ones x y o : exists L L', t_tdot (@d_eye R x y) (@d_full R [o] ro) [] [] = Ok L /\ t_perm [0; 2; 1] L = Ok L' /\
    dsh L' = [x; o; y] /\ deq L' (@d_edge3 R x o y).
  Proof.
    destruct (@dden_tdot R (d_eye x y) (d_full [o] ro) (d_eye x y) (d_full [o] ro) [] []) as (L & E & S & D); try apply deq_refl; try reflexivity; try (cbn; lia); try apply NoDup_nil; try (intros k []; fail).
    destruct (@dden_perm R L (d_tdot (d_eye x y) (d_full [o] ro) [] []) [0; 2; 1] D) as (L' & E' & S' & D'); [rewrite S; reflexivity| |rewrite S; intros k Hk; cbn in Hk |- *; lia|].
    { repeat (apply NoDup_cons; [cbn; intuition discriminate|]). apply NoDup_nil. }
    exists L, L'. split; [exact E|]. split; [exact E'|]. rewrite S in S'. split; [exact S'|].
    destruct D' as [Sd Vd]. pose proof (@edge3_deq R x y o (dv (d_eye x y)) (dv (d_full [o] ro))) as [S3 V3].
    split; [rewrite S'; reflexivity|]. intros i Hi. rewrite Vd by exact Hi. eapply eq_trans; [apply (V3 i); rewrite S' in Hi; exact Hi|].
    destruct i as [|i [|j [|k [|? ?]]]]; rewrite S' in Hi; cbn in Hi; rewrite ?andb_false_r in Hi; try discriminate.
    cbn. unfold delta. ring.
  Qed.
  Lemma d_obs_default (a b h : list t) x o y x' o' y' : a <> [] -> mps_fit (@dsh R) idk a x x' -> mps_fit (@dsh R) idk b y y' -> mpo_fit (@dsh R) idk h a b o o' ->
    exists s, d_contract_obs_default slack a b h = Ok s /\ dsh s = [] /\ dv s [] = closed_element a b h (Nat.min x y) o (Nat.min x' y') o'.
  Proof.
    intros N Fa Fb Fh. destruct (@mpo_len _ _ (@dsh R) idk h a b o o' Fh) as [L1 L2]. assert (Nb : b <> []) by (destruct a, b, h; try discriminate; congruence).
    assert (Nh : h <> []) by (destruct a, h; try discriminate; congruence).
    destruct (@fit_back _ _ (@dsh R) idk a x x' N Fa) as (A1 & k1 & s1 & EA1 & _ & TA1). destruct (@fit_back _ _ (@dsh R) idk b y y' Nb Fb) as (B1 & l1 & t1 & EB1 & _ & TB1).
    destruct (@op_back _ _ (@dsh R) idk h a b o o' Nh Fh) as (H1 & p1 & q1 & r1 & EH1 & _ & TH1).
    destruct a as [|A0 a]; [congruence|]. destruct b as [|B0 b]; [congruence|]. destruct h as [|H0 h]; [congruence|].
    destruct (@fit_front _ _ (@dsh R) idk A0 a x x' Fa) as (s0 & k0 & TA0). destruct (@fit_front _ _ (@dsh R) idk B0 b y y' Fb) as (t0 & l0 & TB0).
    destruct (@op_front _ _ (@dsh R) idk H0 h (A0 :: a) (B0 :: b) o o' Fh) as (p0 & q0 & r0 & TH0).
    unfold d_contract_obs_default. cbn [front rnth nth_error rbind]. rewrite (@identity_edge_left A0 B0 x s0 k0 y t0 l0 TA0 TB0). cbn [rbind].
    rewrite EA1, EB1, EH1. cbn [rbind]. rewrite (@identity_edge_right A1 B1 x' s1 k1 y' t1 l1 TA1 TB1). cbn [rbind].
    rewrite TH0. change ([-1; 0; 0; 0]%Z) with (zpat [None; Some 0; Some 0; Some 0]). rewrite ts_ok by auto. cbn [rbind keep].
    destruct (edge_with_ones x y o) as (L & L' & X1 & X2 & X3 & X4). unfold ts_ones at 1. rewrite X1. cbn [rbind]. rewrite X2. cbn [rbind].
    rewrite TH1. change ([0; 0; -1; 0]%Z) with (zpat [Some 0; Some 0; None; Some 0]). rewrite ts_ok by auto. cbn [rbind keep].
    destruct (edge_with_ones x' y' o') as (E & E' & Y1 & Y2 & Y3 & Y4). unfold ts_ones. rewrite Y1. cbn [rbind]. rewrite Y2. cbn [rbind].
    destruct (@d_contract_obs R (A0 :: a) (B0 :: b) (H0 :: h) L' E' x o y x' o' y' X3 Y3 Fa Fb Fh) as (s & Es & S & V).
    exists s. split; [exact Es|]. split; [exact S|]. rewrite V, (expectation_deq _ _ _ X3 Y3 X4 Y4). apply expectation_edges.
  Qed.
End Dense.

Section DenseUB.
  Variable R : ring.
  Notation t := (dense R).
  Lemma ts_front sh : ts_shape_from 0 sh [-1; 0; 0]%Z = UB.
  Proof. destruct sh as [|s [|s' sh]]; reflexivity. Qed.
  Lemma d_default_ub (a b : list t) : d_contract_default 0 a b = UB.
  Proof. unfold d_contract_default. destruct a as [|A a]; [reflexivity|]. destruct b as [|B b]; [reflexivity|]. cbn [front rnth nth_error rbind]. unfold d_identity_edge. rewrite (ts_front (dsh A)). reflexivity. Qed.
  Lemma d_obs_default_ub (a b h : list t) : d_contract_obs_default 0 a b h = UB.
  Proof. unfold d_contract_obs_default. destruct a as [|A a]; [reflexivity|]. destruct b as [|B b]; [reflexivity|]. cbn [front rnth nth_error rbind]. unfold d_identity_edge. rewrite (ts_front (dsh A)). reflexivity. Qed.
  Lemma d_env_edge_ub (A H : t) dh : length (dsh A) = 3 -> d_env_edge 0 A H 0 dh = UB.
  Proof. intros E. unfold d_env_edge, d_edge_shape_prep. destruct (dsh A) as [|x [|y [|z [|]]]]; try discriminate. reflexivity. Qed.
End DenseUB.
