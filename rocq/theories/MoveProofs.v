(** One displacement of the orthogonality centre, for any tensor operations that represent the dense ones. *)
From Verif Require Import Base Quantity QuantityProofs Ring SpecIndex Dense IndexProofs SpecTensordot Chain SpecChain ChainProofs SpecSvd MoveOc SpecMove.
Set Implicit Arguments.

(** Chains of dense tensors. *)
Section D.
  Variable R : ring.
  Add Ring Rring : (ring_th R).
  Notation t := (dense R).
  Notation fit := (mps_fit (@dsh R) (fun k : nat => k)).

  Lemma tdot_32 (A B : t) x s k y a b d : dsh A = [x; s; k] -> dsh B = [k; y] ->
    dv (d_tdot A B [2] [0]) [a; b; d] = sum i < k, rmul (dv A [a; b; i]) (dv B [i; d]).
  Proof. intros EA EB. unfold d_tdot. rewrite EA, EB. cbn [length free seq filter existsb Nat.eqb negb orb gather map nth app dv firstn skipn]. rewrite sum_idxs1. reflexivity. Qed.
  Lemma tdot_23 (A B : t) k y p z a b d : dsh A = [k; y] -> dsh B = [k; p; z] ->
    dv (d_tdot A B [0] [0]) [a; b; d] = sum i < k, rmul (dv A [i; a]) (dv B [i; b; d]).
  Proof. intros EA EB. unfold d_tdot. rewrite EA, EB. cbn [length free seq filter existsb Nat.eqb negb orb gather map nth app dv firstn skipn]. rewrite sum_idxs1. reflexivity. Qed.
  Lemma tdot_23' (A B : t) k y p z a b d : dsh A = [y; k] -> dsh B = [k; p; z] ->
    dv (d_tdot A B [1] [0]) [a; b; d] = sum i < k, rmul (dv A [a; i]) (dv B [i; b; d]).
  Proof. intros EA EB. unfold d_tdot. rewrite EA, EB. cbn [length free seq filter existsb Nat.eqb negb orb gather map nth app dv firstn skipn]. rewrite sum_idxs1. reflexivity. Qed.

  Lemma fit_app l : forall l' x y, fit (l ++ l') x y <-> exists k, fit l x k /\ fit l' k y.
  Proof.
    induction l as [|A l IH]; intros l' x y; cbn.
    - split; [eauto|intros (k & -> & H); exact H].
    - split.
      + intros (s & k & E & H). apply IH in H as (k' & H1 & H2). exists k'. eauto 6.
      + intros (k' & (s & k & E & H1) & H2). exists s, k. split; [exact E|]. apply IH. eauto.
  Qed.
  (** Replacing two neighbours by two others with the same product. *)
  Lemma amp_replace pre (A B A' B' : t) post x y xs s k p z k' : fit (pre ++ A :: B :: post) x y ->
    dsh A = [xs; s; k] -> dsh B = [k; p; z] -> dsh A' = [xs; s; k'] -> dsh B' = [k'; p; z] ->
    (forall a i j b, a < xs -> i < s -> j < p -> b < z -> (sum c < k', rmul (dv A' [a; i; c]) (dv B' [c; j; b])) = sum c < k, rmul (dv A [a; i; c]) (dv B [c; j; b])) ->
    same_state (pre ++ A :: B :: post) (pre ++ A' :: B' :: post) x y.
  Proof.
    intros HF EA EB EA' EB' H. split.
    - rewrite !map_app. cbn [map]. unfold size at 2 3 6 7. rewrite EA, EB, EA', EB'. reflexivity.
    - revert x HF. induction pre as [|P pre IH]; intros x HF [|i c] a b Hc Ha Hb; try discriminate.
      + cbn [app mps_fit] in HF. destruct HF as (s0 & k0 & E0 & (s1 & k1 & E1 & _)). rewrite EA in E0. injection E0 as <- <- <-.
        cbn [app map in_range] in Hc. destruct c as [|j c]; [rewrite andb_false_r in Hc; discriminate|].
        cbn [in_range] in Hc. rewrite !andb_true_iff, !Nat.ltb_lt in Hc. destruct Hc as (H1 & H2 & _). unfold size in H1, H2. rewrite EA in H1. rewrite EB in H2. cbn in H1, H2.
        cbn [app amp]. unfold size. rewrite EA, EB, EA', EB'. cbn [nth].
        assert (SW : forall (X Y : t) n, (sum c0 < n, rmul (dv X [a; i; c0]) (sum c1 < z, rmul (dv Y [c0; j; c1]) (amp post c c1 b))) =
          sum c1 < z, rmul (sum c0 < n, rmul (dv X [a; i; c0]) (dv Y [c0; j; c1])) (amp post c c1 b)).
        { intros X Y n. transitivity (sum c0 < n, sum c1 < z, rmul (rmul (dv X [a; i; c0]) (dv Y [c0; j; c1])) (amp post c c1 b)).
          - apply sumf_ext. intros c0 _. rewrite <- sumf_mul_l. apply sumf_ext. intros c1 _. ring.
          - rewrite sumf_swap. apply sumf_ext. intros c1 _. rewrite <- sumf_mul_r. reflexivity. }
        rewrite !SW. apply sumf_ext. intros c1 Hc1. apply in_seq in Hc1. rewrite H by lia. reflexivity.
      + cbn [app mps_fit] in HF. destruct HF as (s0 & k0 & E0 & HF). cbn [app map in_range] in Hc. apply andb_true_iff in Hc as (H1 & H2).
        cbn [app amp]. apply sumf_ext. intros c0 Hc0. apply in_seq in Hc0. unfold size in Hc0. rewrite E0 in Hc0. cbn in Hc0. rewrite (IH _ HF c c0 b H2); [reflexivity|lia|exact Hb].
  Qed.
  Definition zero_site (D : t) : Prop := forall i, in_range (dsh D) i = true -> dv D i = rz.
  Lemma amp_zero pre (D : t) post : forall x y, fit (pre ++ D :: post) x y -> zero_site D -> zero_state (pre ++ D :: post) x y.
  Proof.
    induction pre as [|P pre IH]; intros x y HF HZ [|i c] a b Hc Ha Hb; try discriminate; cbn [app mps_fit] in HF; destruct HF as (s & k & E & HF);
      cbn [app map in_range] in Hc; apply andb_true_iff in Hc as (H1 & H2); apply Nat.ltb_lt in H1; unfold size in H1; rewrite E in H1; cbn in H1; cbn [app amp]; apply sumf_zero; intros c0 Hc0; apply in_seq in Hc0;
      unfold size in Hc0; rewrite E in Hc0; cbn in Hc0.
    - rewrite HZ; [ring|]. rewrite E. cbn. rewrite !andb_true_iff, !Nat.ltb_lt. repeat split; lia.
    - rewrite (IH _ _ HF HZ c c0 b H2); [ring|lia|exact Hb].
  Qed.
End D.

Section G.
  Variable R : ring.
  Add Ring Rring : (ring_th R).
  Variable Q : abgroup.
  Variables (T K : Type) (tl : T -> list K) (dual : K -> K) (ksize : K -> nat) (k0 : K) (den : T -> dense R -> Prop) (rl : T -> Q).
  Variable tsvd : T -> nat -> result (T * T * T).
  Variable tmul : T -> T -> result T.
  Variable tdot : T -> T -> list nat -> list nat -> result T.
  Variable tconj : T -> T.
  Variable tperm : list nat -> T -> result T.
  (** The dense decomposition returns isometries for the matrices of this tensor, cut at this position. *)
  Variable iso : nat -> T -> Prop.
  Hypothesis dual_dual : forall k, dual (dual k) = k.
  Hypothesis dual_size : forall k, ksize (dual k) = ksize k.
  Hypothesis den_shape : forall t D, den t D -> dsh D = map ksize (tl t).
  Hypothesis den_tdot : forall A B DA DB d1 d2, den A DA -> den B DB -> length d1 = length d2 -> NoDup d1 -> NoDup d2 ->
    (forall k, In k d1 -> k < length (tl A)) -> (forall k, In k d2 -> k < length (tl B)) ->
    gather k0 d1 (tl A) = map dual (gather k0 d2 (tl B)) -> 0 < length (tl A) -> 0 < length (tl B) ->
    exists C, tdot A B d1 d2 = Ok C /\ tl C = gather k0 (free (length (tl A)) d1) (tl A) ++ gather k0 (free (length (tl B)) d2) (tl B) /\
      den C (d_tdot DA DB d1 d2) /\ rl C = qop Q (rl A) (rl B).
  Hypothesis den_conj : forall A DA, den A DA -> tl (tconj A) = map dual (tl A) /\ den (tconj A) (d_map rconj DA) /\ rl (tconj A) = qinv Q (rl A).
  Hypothesis den_perm : forall A DA p, den A DA -> length p = length (tl A) -> NoDup p -> (forall k, In k p -> k < length (tl A)) ->
    exists C, tperm p A = Ok C /\ tl C = gather k0 p (tl A) /\ den C (d_permute p DA) /\ rl C = rl A.
  (** [strict]: the decomposition refuses tensors of zeros. *)
  Variable strict : Prop.
  Hypothesis den_svd : forall A DA l1 l2, den A DA -> tl A = l1 ++ l2 -> (length l1 = 1 /\ l2 <> [] \/ l1 <> [] /\ length l2 = 1) -> (strict -> ~ zero_site DA) ->
    exists U d V k DU Dd DV, tsvd A (length l1) = Ok (U, d, V) /\ tl U = l1 ++ [k] /\ tl V = map dual l2 ++ [k] /\ den U DU /\ den V DV /\
      rl U = rl A /\ rl V = qe Q /\ tensor_factors (map ksize l1) (map ksize l2) (ksize k) DA DU Dd DV /\ real_entries Dd /\
      (iso (length l1) A -> tensor_orthonormal (map ksize l1) (ksize k) DU /\ tensor_orthonormal (map ksize l2) (ksize k) DV) /\
      (forall X DX l, den X DX -> tl X = l :: [k] -> exists Y DY, tmul X d = Ok Y /\ tl Y = tl X /\ den Y DY /\ rl Y = rl X /\
         forall i c, i < ksize l -> c < ksize k -> dv DY [i; c] = rmul (dv DX [i; c]) (dv Dd [c])).

  Definition pulls (pull : T -> T -> result (T * T)) : Prop := forall N A DN DA x s k p y, den N DN -> den A DA ->
    tl N = [dual x; s; k] -> tl A = [dual k; p; y] -> (strict -> ~ zero_site DA) ->
    exists N' A' DN' DA' k', pull N A = Ok (N', A') /\ den N' DN' /\ den A' DA' /\ tl N' = [dual x; s; k'] /\ tl A' = [dual k'; p; y] /\
      (forall a i j b, a < ksize x -> i < ksize s -> j < ksize p -> b < ksize y ->
        (sum c < ksize k', rmul (dv DN' [a; i; c]) (dv DA' [c; j; b])) = sum c < ksize k, rmul (dv DN [a; i; c]) (dv DA [c; j; b])) /\
      qop Q (rl N') (rl A') = qop Q (rl N) (rl A) /\ (iso 1 A -> right_isometry DA').
  Definition pushes (push : T -> T -> result (T * T)) : Prop := forall A N DA DN x s k p y, den A DA -> den N DN ->
    tl A = [dual x; s; k] -> tl N = [dual k; p; y] -> (strict -> ~ zero_site DA) ->
    exists A' N' DA' DN' k', push A N = Ok (A', N') /\ den A' DA' /\ den N' DN' /\ tl A' = [dual x; s; k'] /\ tl N' = [dual k'; p; y] /\
      (forall a i j b, a < ksize x -> i < ksize s -> j < ksize p -> b < ksize y ->
        (sum c < ksize k', rmul (dv DA' [a; i; c]) (dv DN' [c; j; b])) = sum c < ksize k, rmul (dv DA [a; i; c]) (dv DN [c; j; b])) /\
      qop Q (rl A') (rl N') = qop Q (rl A) (rl N) /\ (iso 2 A -> left_isometry DA').

  Ltac tred_in H := cbv beta iota delta [length free gather seq filter map nth existsb Nat.eqb negb orb app] in H.
  Ltac tred0 := cbv beta iota delta [length free gather seq filter map nth existsb Nat.eqb negb orb app].
  Ltac nodup := repeat (apply NoDup_cons; [cbn; intuition discriminate|]); apply NoDup_nil.
  Ltac inl := let k := fresh in let H := fresh in intros k H; cbn in H |- *; intuition lia.
  Ltac contr D1 D2 E1 E2 :=
    let C := fresh "C" in let EC := fresh "EC" in let TC := fresh "TC" in let DC := fresh "DC" in let RC := fresh "RC" in
    match type of D1 with den ?A _ => match type of D2 with den ?B _ =>
      match goal with |- context [tdot A B ?d1 ?d2] => destruct (den_tdot (d1 := d1) (d2 := d2) D1 D2) as (C & EC & TC & DC & RC) end end end;
    [ | | | | | | |
    | rewrite EC; rewrite E1, E2 in TC; tred_in TC; cbn [rbind] ];
    [ reflexivity | nodup | nodup | rewrite E1; inl | rewrite E2; inl
    | rewrite E1, E2; tred0; rewrite ?dual_dual; reflexivity | rewrite E1; cbn; lia | rewrite E2; cbn; lia | ].
  Ltac permd D1 E1 :=
    let C := fresh "P" in let EC := fresh "EP" in let TC := fresh "TP" in let DC := fresh "DP" in let RC := fresh "RP" in
    match type of D1 with den ?A _ =>
      match goal with |- context [tperm ?p A] => destruct (den_perm (p := p) D1) as (C & EC & TC & DC & RC) end end;
    [ rewrite E1; reflexivity | nodup | rewrite E1; inl | rewrite EC; rewrite E1 in TC; tred_in TC; cbn [rbind] ].

  (** Entries of the decomposed site. *)
  Lemma pull_values (DN DA DU Dd DV DY : dense R) x s k p y k' : dsh DN = [ksize x; ksize s; ksize k] -> dsh DY = [ksize k; ksize k'] ->
    tensor_factors [ksize k] [ksize p; ksize y] (ksize k') DA DU Dd DV ->
    (forall i c, i < ksize k -> c < ksize k' -> dv DY [i; c] = rmul (dv DU [i; c]) (dv Dd [c])) ->
    forall a i j b, j < ksize p -> b < ksize y ->
      (sum c < ksize k', rmul (dv (d_tdot DN DY [2] [0]) [a; i; c]) (rconj (dv DV [j; b; c]))) = sum c < ksize k, rmul (dv DN [a; i; c]) (dv DA [c; j; b]).
  Proof.
    intros EN EY (_ & _ & _ & F) HY a i j b Hj Hb. transitivity (sum c < ksize k', sum m < ksize k, rmul (rmul (dv DN [a; i; m]) (dv DY [m; c])) (rconj (dv DV [j; b; c]))).
    - apply sumf_ext. intros c _. rewrite (tdot_32 _ _ _ _ _ EN EY), <- sumf_mul_r. reflexivity.
    - rewrite sumf_swap. apply sumf_ext. intros m Hm. apply in_seq in Hm. specialize (F [m] [j; b]). cbn [app] in F. rewrite F.
      + rewrite <- sumf_mul_l. apply sumf_ext. intros c Hc. apply in_seq in Hc. rewrite HY by lia. ring.
      + cbn. rewrite (proj2 (Nat.ltb_lt _ _)) by lia. reflexivity.
      + cbn. rewrite !(proj2 (Nat.ltb_lt _ _)) by lia. reflexivity.
  Qed.
  Lemma push_values (DN DA DU Dd DV DY : dense R) x s k p y k' : dsh DN = [ksize k; ksize p; ksize y] ->
    tensor_factors [ksize x; ksize s] [ksize k] (ksize k') DA DU Dd DV -> real_entries Dd ->
    (forall i c, i < ksize k -> c < ksize k' -> dv DY [i; c] = rmul (dv DV [i; c]) (dv Dd [c])) ->
    forall a i j b, a < ksize x -> i < ksize s ->
      (sum c < ksize k', rmul (dv DU [a; i; c]) (sum m < ksize k, rmul (rconj (dv DY [m; c])) (dv DN [m; j; b]))) = sum c < ksize k, rmul (dv DA [a; i; c]) (dv DN [c; j; b]).
  Proof.
    intros EN (_ & Sd & _ & F) HR HY a i j b Ha Hi. transitivity (sum c < ksize k', sum m < ksize k, rmul (dv DU [a; i; c]) (rmul (rconj (dv DY [m; c])) (dv DN [m; j; b]))).
    - apply sumf_ext. intros c _. rewrite <- sumf_mul_l. reflexivity.
    - rewrite sumf_swap. apply sumf_ext. intros m Hm. apply in_seq in Hm. specialize (F [a; i] [m]). cbn [app] in F. rewrite F.
      + rewrite <- sumf_mul_r. apply sumf_ext. intros c Hc. apply in_seq in Hc. rewrite HY by lia. rewrite rconj_mul, (HR [c]) by (rewrite Sd; cbn; rewrite (proj2 (Nat.ltb_lt _ _)) by lia; reflexivity). ring.
      + cbn. rewrite !(proj2 (Nat.ltb_lt _ _)) by lia. reflexivity.
      + cbn. rewrite (proj2 (Nat.ltb_lt _ _)) by lia. reflexivity.
  Qed.
  Lemma right_of_V (DA DV : dense R) p y k' : size 0 DA = ksize k' -> size 1 DA = ksize p -> size 2 DA = ksize y -> (forall c i j, dv DA [c; i; j] = rconj (dv DV [i; j; c])) ->
    tensor_orthonormal [ksize p; ksize y] (ksize k') DV -> right_isometry DA.
  Proof.
    intros S0 S1 S2 E H c c' Hc Hc'. rewrite S0 in Hc, Hc'. rewrite S1, S2. rewrite <- (H c c' Hc Hc'), sum_idxs_cons. apply sumf_ext. intros i _. rewrite sum_idxs1. apply sumf_ext. intros j _.
    rewrite !E, rconj_conj. reflexivity.
  Qed.
  Lemma left_of_U (DU : dense R) x s k' : size 0 DU = ksize x -> size 1 DU = ksize s -> size 2 DU = ksize k' -> tensor_orthonormal [ksize x; ksize s] (ksize k') DU -> left_isometry DU.
  Proof.
    intros S0 S1 S2 H c c' Hc Hc'. rewrite S2 in Hc, Hc'. rewrite S0, S1. rewrite <- (H c c' Hc Hc'), sum_idxs_cons. apply sumf_ext. intros i _. rewrite sum_idxs1. reflexivity.
  Qed.
  Ltac szs D E := unfold size; rewrite (den_shape D), E; cbn [map nth]; rewrite ?dual_size; reflexivity.

  Lemma b_pulls : pulls (b_pull tsvd tmul tdot tconj tperm).
  Proof.
    intros N A DN DA x s k p y HN HA EN EA NZ. destruct (@den_svd A DA [dual k] [p; y] HA EA) as (U & d & V & k' & DU & Dd & DV & ES & EU & EV & HU & HV & RU & RV & HF & HR & HI & HM); [left; split; [reflexivity|discriminate]|exact NZ|].
    unfold b_pull. change 1 with (length [dual k]) at 1. rewrite ES. cbn [rbind]. destruct (den_conj HV) as (EC & DC & RC). rewrite EV in EC. cbn in EC. rewrite !dual_dual in EC.
    permd DC EC. destruct (HM U DU _ HU EU) as (Y & DY & EY & TY & HY & RY & VY). rewrite EY. cbn [rbind]. rewrite EU in TY. cbn [app] in TY. contr HN HY EN TY.
    exists C, P, (d_tdot DN DY [2] [0]), (d_permute [2; 0; 1] (d_map rconj DV)), k'. split; [reflexivity|]. split; [exact DC0|]. split; [exact DP|]. split; [exact TC|]. split; [exact TP|].
    split; [|split].
    - intros a i j b Ha Hi Hj Hb. cbn [map] in HF. rewrite dual_size in HF.
      assert (SN : dsh DN = [ksize x; ksize s; ksize k]) by (rewrite (den_shape HN), EN; cbn; rewrite dual_size; reflexivity).
      assert (SY : dsh DY = [ksize k; ksize k']) by (rewrite (den_shape HY), TY; cbn; rewrite dual_size; reflexivity).
      assert (SV : forall i0 c, i0 < ksize k -> c < ksize k' -> dv DY [i0; c] = rmul (dv DU [i0; c]) (dv Dd [c])) by (intros i0 c H1 H2; apply VY; [rewrite dual_size; exact H1|exact H2]).
      rewrite <- (@pull_values DN DA DU Dd DV DY x s k p y k' SN SY HF SV a i j b Hj Hb). apply sumf_ext. intros c _. f_equal.
    - rewrite RC0, RP, RC, RY, RU, RV, qinv_e, qop_e_r. reflexivity.
    - intros I. apply HI in I as (_ & I). apply (@right_of_V _ DV p y k'); [szs DP TP..|reflexivity|exact I].
  Qed.
  Lemma d_pulls : pulls (d_pull tsvd tmul tdot tconj tperm).
  Proof.
    intros N A DN DA x s k p y HN HA EN EA NZ. destruct (@den_svd A DA [dual k] [p; y] HA EA) as (U & d & V & k' & DU & Dd & DV & ES & EU & EV & HU & HV & RU & RV & HF & HR & HI & HM); [left; split; [reflexivity|discriminate]|exact NZ|].
    unfold d_pull. change 1 with (length [dual k]) at 1. rewrite ES. cbn [rbind]. cbn [map app] in EV.
    permd HV EV. destruct (HM U DU _ HU EU) as (Y & DY & EY & TY & HY & RY & VY). rewrite EY. cbn [rbind]. rewrite EU in TY. cbn [app] in TY. contr HN HY EN TY.
    destruct (den_conj DP) as (EC' & DC' & RC'). rewrite TP in EC'. cbn in EC'. rewrite !dual_dual in EC'.
    exists C, (tconj P), (d_tdot DN DY [2] [0]), (d_map rconj (d_permute [2; 0; 1] DV)), k'. split; [reflexivity|]. split; [exact DC|]. split; [exact DC'|]. split; [exact TC|]. split; [exact EC'|].
    split; [|split].
    - intros a i j b Ha Hi Hj Hb. cbn [map] in HF. rewrite dual_size in HF.
      assert (SN : dsh DN = [ksize x; ksize s; ksize k]) by (rewrite (den_shape HN), EN; cbn; rewrite dual_size; reflexivity).
      assert (SY : dsh DY = [ksize k; ksize k']) by (rewrite (den_shape HY), TY; cbn; rewrite dual_size; reflexivity).
      assert (SV : forall i0 c, i0 < ksize k -> c < ksize k' -> dv DY [i0; c] = rmul (dv DU [i0; c]) (dv Dd [c])) by (intros i0 c H1 H2; apply VY; [rewrite dual_size; exact H1|exact H2]).
      rewrite <- (@pull_values DN DA DU Dd DV DY x s k p y k' SN SY HF SV a i j b Hj Hb). apply sumf_ext. intros c _. f_equal.
    - rewrite RC, RC', RP, RY, RU, RV, qinv_e, qop_e_r. reflexivity.
    - intros I. apply HI in I as (_ & I). apply (@right_of_V _ DV p y k'); [szs DC' EC'..|reflexivity|exact I].
  Qed.
  Lemma b_pushes : pushes (b_push tsvd tmul tdot tconj).
  Proof.
    intros A N DA DN x s k p y HA HN EA EN NZ. destruct (@den_svd A DA [dual x; s] [k] HA EA) as (U & d & V & k' & DU & Dd & DV & ES & EU & EV & HU & HV & RU & RV & HF & HR & HI & HM); [right; split; [discriminate|reflexivity]|exact NZ|].
    unfold b_push. change 2 with (length [dual x; s]) at 1. rewrite ES. cbn [rbind]. destruct (HM V DV _ HV EV) as (Y & DY & EY & TY & HY & RY & VY). rewrite EY. cbn [rbind]. rewrite EV in TY. cbn [map app] in TY, EU.
    destruct (den_conj HY) as (EC & DC & RC). rewrite TY in EC. cbn in EC. rewrite !dual_dual in EC. contr DC HN EC EN.
    assert (SY : dsh (d_map rconj DY) = [ksize k; ksize k']) by (rewrite (den_shape DC), EC; cbn; rewrite dual_size; reflexivity).
    assert (SN : dsh DN = [ksize k; ksize p; ksize y]) by (rewrite (den_shape HN), EN; cbn; rewrite dual_size; reflexivity).
    exists U, C, DU, (d_tdot (d_map rconj DY) DN [0] [0]), k'. split; [reflexivity|]. split; [exact HU|]. split; [exact DC0|]. split; [exact EU|]. split; [exact TC|].
    split; [|split].
    - intros a i j b Ha Hi Hj Hb. cbn [map] in HF. rewrite dual_size in HF. rewrite <- (@push_values DN DA DU Dd DV DY x s k p y k' SN HF HR) with (a := a) (i := i); try assumption.
      + apply sumf_ext. intros c _. rewrite (tdot_23 _ _ _ _ _ SY SN). reflexivity.
      + intros i0 c H1 H2. apply VY; [rewrite dual_size; exact H1|exact H2].
    - rewrite RC0, RC, RY, RU, RV, qinv_e, qop_e_l. reflexivity.
    - intros I. apply HI in I as (I & _). cbn [map] in I. rewrite dual_size in I. apply (@left_of_U DU x s k'); [szs HU EU..|exact I].
  Qed.
  Lemma d_pushes : pushes (d_push tsvd tmul tdot tconj tperm).
  Proof.
    intros A N DA DN x s k p y HA HN EA EN NZ. destruct (@den_svd A DA [dual x; s] [k] HA EA) as (U & d & V & k' & DU & Dd & DV & ES & EU & EV & HU & HV & RU & RV & HF & HR & HI & HM); [right; split; [discriminate|reflexivity]|exact NZ|].
    unfold d_push. change 2 with (length [dual x; s]) at 1. rewrite ES. cbn [rbind]. destruct (HM V DV _ HV EV) as (Y & DY & EY & TY & HY & RY & VY). rewrite EY. cbn [rbind]. rewrite EV in TY. cbn [map app] in TY, EU.
    permd HY TY. destruct (den_conj DP) as (EC & DC & RC). rewrite TP in EC. cbn in EC. rewrite !dual_dual in EC. contr DC HN EC EN.
    assert (SY : dsh (d_map rconj (d_permute [1; 0] DY)) = [ksize k'; ksize k]) by (rewrite (den_shape DC), EC; cbn; rewrite dual_size; reflexivity).
    assert (SN : dsh DN = [ksize k; ksize p; ksize y]) by (rewrite (den_shape HN), EN; cbn; rewrite dual_size; reflexivity).
    exists U, C, DU, (d_tdot (d_map rconj (d_permute [1; 0] DY)) DN [1] [0]), k'. split; [reflexivity|]. split; [exact HU|]. split; [exact DC0|]. split; [exact EU|]. split; [exact TC|].
    split; [|split].
    - intros a i j b Ha Hi Hj Hb. cbn [map] in HF. rewrite dual_size in HF. rewrite <- (@push_values DN DA DU Dd DV DY x s k p y k' SN HF HR) with (a := a) (i := i); try assumption.
      + apply sumf_ext. intros c _. rewrite (tdot_23' _ _ _ _ _ SY SN). reflexivity.
      + intros i0 c H1 H2. apply VY; [rewrite dual_size; exact H1|exact H2].
    - rewrite RC0, RC, RP, RY, RU, RV, qinv_e, qop_e_l. reflexivity.
    - intros I. apply HI in I as (I & _). cbn [map] in I. rewrite dual_size in I. apply (@left_of_U DU x s k'); [szs HU EU..|exact I].
  Qed.
End G.
