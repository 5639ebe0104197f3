(** Lemmas on the generalised contraction: the matrix product it makes is [torch::tensordot]. *)
From Verif Require Import Base FlatMap FlatMapProofs Ring Index SpecIndex IndexProofs Dense BTensor SpecBTensor LegsProofs BTensorProofs
  BTensorArith ArithProofs Tensordot SpecTensordot TensordotProofs TensordotThms Chain ChainProofs ChainInst SvdDense Gdot.
Set Implicit Arguments.

(** Summing contracted coordinates that face a dimension of size one. *)
Section Red.
  Variable R : ring.
  Add Ring Rr : (ring_th R).

  Fixpoint red1 (s1 s2 : list nat) (a : list nat -> R) : list nat -> R :=
    match s1, s2 with
    | x :: s1', y :: s2' => fun c => red1 s1' s2' (fun c' => if y =? 1 then sumf R (fun z => a (z :: c')) (seq 0 x) else a (hd 0 c :: c')) (tl c)
    | _, _ => a
    end.
  Fixpoint red2 (s1 s2 : list nat) (b : list nat -> R) : list nat -> R :=
    match s1, s2 with
    | x :: s1', y :: s2' => fun c => red2 s1' s2' (fun c' => if y =? 1 then b (hd 0 c :: c')
        else if x =? 1 then sumf R (fun z => b (z :: c')) (seq 0 y) else b (hd 0 c :: c')) (tl c)
    | _, _ => b
    end.
  Definition msz1 (x y : nat) : nat := if y =? 1 then 1 else if x =? 1 then 1 else x.
  Notation msz := (map2 msz1).

  Lemma red1_ext s1 : forall s2 a a' c, (forall c', a c' = a' c') -> red1 s1 s2 a c = red1 s1 s2 a' c.
  Proof.
    induction s1 as [|x s1 IH]; intros [|y s2] a a' c H; cbn; auto. apply IH. intros c'. destruct (y =? 1); auto. apply sumf_ext. auto.
  Qed.
  Lemma red2_ext s1 : forall s2 a a' c, (forall c', a c' = a' c') -> red2 s1 s2 a c = red2 s1 s2 a' c.
  Proof.
    induction s1 as [|x s1 IH]; intros [|y s2] a a' c H; cbn; auto. apply IH. intros c'. destruct (y =? 1); auto. destruct (x =? 1); auto. apply sumf_ext. auto.
  Qed.

  Definition agree1 (x y : nat) : bool := (x =? y) || (x =? 1) || (y =? 1).
  Lemma red_sum s1 : forall s2 a b, length s1 = length s2 -> forallb (fun '(x, y) => (x =? y) || (x =? 1) || (y =? 1)) (combine s1 s2) = true ->
    sumf R (fun c => rmul (a (map2 clamp s1 c)) (b (map2 clamp s2 c))) (idxs (map2 bsize s1 s2)) =
    sumf R (fun c => rmul (red1 s1 s2 a c) (red2 s1 s2 b c)) (idxs (msz s1 s2)).
  Proof.
    induction s1 as [|x s1 IH]; intros [|y s2] a b L F; try discriminate; [reflexivity|].
    injection L as L. cbn [combine forallb] in F. apply andb_true_iff in F. destruct F as [F1 F].
    cbn [map2 red1 red2]. rewrite !sum_idxs_cons.
    destruct (Nat.eqb_spec y 1) as [->|Hy]; [|destruct (Nat.eqb_spec x 1) as [->|Hx]].
    - change (msz1 x 1) with 1. rewrite (sumf_ext _ (fun z => _) (fun z => sumf R (fun c => rmul (a (z :: map2 clamp s1 c)) (b (0 :: map2 clamp s2 c))) (idxs (map2 bsize s1 s2)))).
      2:{ intros z Hz. apply in_seq in Hz. apply sumf_ext. intros c _. cbn [map2]. unfold clamp at 1 3. unfold bsize in Hz.
          destruct (Nat.eqb_spec x 1) as [->|Hx]; cbn [Nat.eqb]; [replace z with 0 by lia|]; reflexivity. }
      replace (bsize x 1) with x by (unfold bsize; destruct (Nat.eqb_spec x 1); auto).
      rewrite sumf_swap. change (seq 0 1) with [0]. rewrite sumf_cons, sumf_nil. cbn [hd tl].
      rewrite <- (IH s2 (fun c' => sumf R (fun z => a (z :: c')) (seq 0 x)) (fun c' => b (0 :: c')) L F).
      rewrite radd_0_r. apply sumf_ext. intros c _. rewrite sumf_mul_r. reflexivity.
    - replace (msz1 1 y) with 1 by (unfold msz1; destruct (y =? 1); reflexivity). rewrite (sumf_ext _ (fun z => _) (fun z => sumf R (fun c => rmul (a (0 :: map2 clamp s1 c)) (b (z :: map2 clamp s2 c))) (idxs (map2 bsize s1 s2)))).
      2:{ intros z Hz. apply in_seq in Hz. apply sumf_ext. intros c _. cbn [map2]. unfold clamp at 1 3. cbn [Nat.eqb].
          destruct (Nat.eqb_spec y 1) as [->|Hx]; [contradiction|reflexivity]. }
      replace (bsize 1 y) with y by reflexivity.
      rewrite sumf_swap. change (seq 0 1) with [0]. rewrite sumf_cons, sumf_nil. cbn [hd tl].
      rewrite <- (IH s2 (fun c' => a (0 :: c')) (fun c' => sumf R (fun z => b (z :: c')) (seq 0 y)) L F).
      rewrite radd_0_r. apply sumf_ext. intros c _. rewrite sumf_mul_l. reflexivity.
    - assert (x = y) as -> by (destruct (Nat.eqb_spec x y); auto; destruct (Nat.eqb_spec x 1), (Nat.eqb_spec y 1); try contradiction; discriminate).
      replace (msz1 y y) with y by (unfold msz1; destruct (Nat.eqb_spec y 1); [contradiction|reflexivity]).
      replace (bsize y y) with y by (unfold bsize; destruct (y =? 1); reflexivity). apply sumf_ext. intros z Hz. cbn [hd tl].
      rewrite <- (IH s2 (fun c' => a (z :: c')) (fun c' => b (z :: c')) L F). apply sumf_ext. intros c _. cbn [map2]. unfold clamp at 1 3.
      destruct (Nat.eqb_spec y 1) as [->|_]; [contradiction|]. reflexivity.
  Qed.
End Red.
Notation msz := (map2 msz1).

Lemma nth_coords n d c i k : k < n -> nth k (coords n d c i) 0 = slot d c (free n d) i k.
Proof.
  intros H. unfold coords. rewrite (nth_indep _ 0 (slot d c (free n d) i 0)) by (rewrite map_length, seq_length; lia). rewrite map_nth, seq_nth by lia. reflexivity.
Qed.
Lemma coords_length n d c i : length (coords n d c i) = n. Proof. unfold coords. rewrite map_length, seq_length. reflexivity. Qed.
Lemma nth_upd' (l : list nat) n a k : n < length l -> nth k (upd l n a) 0 = if k =? n then a else nth k l 0.
Proof.
  intros H. unfold upd. assert (L : length (firstn n l) = n) by (rewrite firstn_length; lia). destruct (Nat.eqb_spec k n) as [->|N].
  - rewrite app_nth2 by lia. rewrite L, Nat.sub_diag. reflexivity.
  - destruct (Nat.lt_ge_cases k n).
    + rewrite app_nth1 by lia. rewrite <- (firstn_skipn n l) at 2. rewrite app_nth1 by lia. reflexivity.
    + rewrite app_nth2 by lia. rewrite L. destruct (k - n) as [|j] eqn:E; [lia|]. cbn [nth].
      replace k with (S n + j) by lia. rewrite <- (firstn_skipn (S n) l) at 2. rewrite app_nth2; rewrite firstn_length; [|lia]. f_equal. lia.
Qed.
Lemma upd_length' A (l : list A) n a : n < length l -> length (upd l n a) = length l.
Proof. intros H. unfold upd. rewrite app_length, firstn_length. cbn [length]. rewrite skipn_length. lia. Qed.

Lemma upd_coords n e k r pre x c i y : NoDup (e ++ k :: r) -> k < n -> length pre = length e ->
  upd (coords n (e ++ k :: r) (pre ++ x :: c) i) k y = coords n (e ++ k :: r) (pre ++ y :: c) i.
Proof.
  intros N Hk L. apply nth_ext with (d := 0) (d' := 0); [rewrite upd_length', !coords_length; auto; rewrite coords_length; auto|].
  intros j Hj. rewrite upd_length', coords_length in Hj by (rewrite coords_length; auto). rewrite nth_upd' by (rewrite coords_length; auto). rewrite !nth_coords by auto.
  assert (Nk : ~ In k e) by (apply NoDup_remove_2 in N; intros H; apply N, in_or_app; auto).
  unfold slot. destruct (Nat.eqb_spec j k) as [->|Hj'].
  - replace (existsb (Nat.eqb k) (e ++ k :: r)) with true by (symmetry; apply existsb_eqb, in_or_app; cbn; auto).
    rewrite index_of_notin by auto. cbn [index_of]. rewrite Nat.eqb_refl, Nat.add_0_r, <- L, app_nth2, Nat.sub_diag by auto. reflexivity.
  - destruct (existsb (Nat.eqb j) (e ++ k :: r)) eqn:E; [|reflexivity]. apply existsb_eqb in E.
    destruct (in_dec Nat.eq_dec j e) as [H|H].
    + rewrite !index_of_in by auto. assert (index_of j e < length pre) by (rewrite L; apply index_of_spec; auto). rewrite !app_nth1 by auto. reflexivity.
    + rewrite index_of_notin by auto. cbn [index_of]. destruct (Nat.eqb_spec k j); [congruence|]. rewrite <- L. rewrite !app_nth2 by lia.
      replace (length pre + S (index_of j r) - length pre) with (S (index_of j r)) by lia. reflexivity.
Qed.

Section Loop.
  Context {R : ring}.
  Add Ring Rr2 : (ring_th R).
  Variables A B : dense R.
  Variables d1 d2 : list nat.
  Hypothesis N1 : NoDup d1.
  Hypothesis N2 : NoDup d2.
  Hypothesis I1 : forall k, In k d1 -> k < length (dsh A).
  Hypothesis I2 : forall k, In k d2 -> k < length (dsh B).
  Notation n1 := (length (dsh A)).
  Notation n2 := (length (dsh B)).
  Notation s1 r := (gather 0 r (dsh A)).
  Notation s2 r := (gather 0 r (dsh B)).

  Lemma t_size_ok (t : dense R) k : k < length (dsh t) -> t_size t k = Ok (nth k (dsh t) 0).
  Proof. intros H. unfold t_size. rewrite (nth_error_nth' _ 0 H). reflexivity. Qed.

  Lemma loop_spec r1 : forall r2 e1 e2 t1 t2 cs, d1 = e1 ++ r1 -> d2 = e2 ++ r2 -> length r1 = length r2 ->
    forallb (fun '(x, y) => (x =? y) || (x =? 1) || (y =? 1)) (combine (s1 r1) (s2 r2)) = true ->
    length (dsh t1) = n1 -> length (dsh t2) = n2 -> gather 0 r1 (dsh t1) = s1 r1 -> gather 0 r2 (dsh t2) = s2 r2 ->
    exists u1 u2, sum_broadcast A B (combine r1 r2) t1 t2 cs = Ok (u1, u2, cs * prod_list (msz (s1 r1) (s2 r2))) /\
      length (dsh u1) = n1 /\ length (dsh u2) = n2 /\
      (forall k, ~ In k r1 -> nth k (dsh u1) 0 = nth k (dsh t1) 0) /\ (forall k, ~ In k r2 -> nth k (dsh u2) 0 = nth k (dsh t2) 0) /\
      gather 0 r1 (dsh u1) = msz (s1 r1) (s2 r2) /\ gather 0 r2 (dsh u2) = msz (s1 r1) (s2 r2) /\
      (forall pre c i, length pre = length e1 -> length c = length r1 ->
        dv u1 (coords n1 d1 (pre ++ c) i) = red1 R (s1 r1) (s2 r2) (fun c' => dv t1 (coords n1 d1 (pre ++ c') i)) c) /\
      (forall pre c i, length pre = length e2 -> length c = length r2 ->
        dv u2 (coords n2 d2 (pre ++ c) i) = red2 R (s1 r1) (s2 r2) (fun c' => dv t2 (coords n2 d2 (pre ++ c') i)) c).
  Proof.
    induction r1 as [|k1 r1 IH]; intros [|k2 r2] e1 e2 t1 t2 cs E1 E2 L F L1 L2 G1 G2; try discriminate.
    - exists t1, t2. cbn. rewrite Nat.mul_1_r. repeat (split; [solve [auto]|]). split; intros; reflexivity.
    - injection L as L.
      assert (K1 : k1 < n1) by (apply I1; rewrite E1; apply in_or_app; cbn; auto).
      assert (K2 : k2 < n2) by (apply I2; rewrite E2; apply in_or_app; cbn; auto).
      assert (M1 : NoDup (e1 ++ k1 :: r1)) by (rewrite <- E1; auto). assert (M2 : NoDup (e2 ++ k2 :: r2)) by (rewrite <- E2; auto).
      assert (J1 : ~ In k1 r1) by (apply NoDup_remove_2 in M1; intros H; apply M1, in_or_app; auto).
      assert (J2 : ~ In k2 r2) by (apply NoDup_remove_2 in M2; intros H; apply M2, in_or_app; auto).
      cbn [gather map combine forallb] in F. apply andb_true_iff in F. destruct F as [F1 F].
      cbn [gather map] in G1, G2. injection G1 as X1 G1. injection G2 as X2 G2.
      set (x := nth k1 (dsh A) 0) in *. set (y := nth k2 (dsh B) 0) in *.
      assert (D1 : d1 = (e1 ++ [k1]) ++ r1) by (rewrite <- app_assoc; exact E1).
      assert (D2 : d2 = (e2 ++ [k2]) ++ r2) by (rewrite <- app_assoc; exact E2).
      cbn [combine sum_broadcast]. rewrite (t_size_ok A K1), (t_size_ok B K2). cbn [rbind]. fold x y.
      assert (P : exists t1' t2', 
        (if y =? 1 then sum_broadcast A B (combine r1 r2) (d_sumkeep k1 t1) t2 cs
         else if x =? 1 then sum_broadcast A B (combine r1 r2) t1 (d_sumkeep k2 t2) cs
         else if x =? y then sum_broadcast A B (combine r1 r2) t1 t2 (cs * x) else Throw TorchError)
        = sum_broadcast A B (combine r1 r2) t1' t2' (cs * msz1 x y) /\
        length (dsh t1') = n1 /\ length (dsh t2') = n2 /\
        (forall k, nth k (dsh t1') 0 = if k =? k1 then msz1 x y else nth k (dsh t1) 0) /\
        (forall k, nth k (dsh t2') 0 = if k =? k2 then msz1 x y else nth k (dsh t2) 0) /\
        (forall pre h c i, length pre = length e1 -> dv t1' (coords n1 d1 (pre ++ h :: c) i) =
           if y =? 1 then sumf R (fun z => dv t1 (coords n1 d1 (pre ++ z :: c) i)) (seq 0 x) else dv t1 (coords n1 d1 (pre ++ h :: c) i)) /\
        (forall pre h c i, length pre = length e2 -> dv t2' (coords n2 d2 (pre ++ h :: c) i) =
           if y =? 1 then dv t2 (coords n2 d2 (pre ++ h :: c) i) else
           if x =? 1 then sumf R (fun z => dv t2 (coords n2 d2 (pre ++ z :: c) i)) (seq 0 y) else dv t2 (coords n2 d2 (pre ++ h :: c) i))).
      { unfold msz1. destruct (Nat.eqb_spec y 1) as [Hy|Hy]; [|destruct (Nat.eqb_spec x 1) as [Hx|Hx]].
        - exists (d_sumkeep k1 t1), t2. rewrite Nat.mul_1_r. split; [reflexivity|]. cbn [d_sumkeep dsh dv].
          split; [rewrite upd_length'; lia|]. split; [auto|]. split; [intros k; apply nth_upd'; lia|].
          split; [intros k; destruct (Nat.eqb_spec k k2) as [->|]; lia|]. split; [|auto].
          intros pre h c i Hp. rewrite X1. apply sumf_ext. intros z _. f_equal. rewrite E1. apply upd_coords; auto.
        - exists t1, (d_sumkeep k2 t2). rewrite Nat.mul_1_r. split; [reflexivity|]. cbn [d_sumkeep dsh dv].
          split; [auto|]. split; [rewrite upd_length'; lia|]. split; [intros k; destruct (Nat.eqb_spec k k1) as [->|]; lia|].
          split; [intros k; apply nth_upd'; lia|]. split; [auto|].
          intros pre h c i Hp. rewrite X2. apply sumf_ext. intros z _. f_equal. rewrite E2. apply upd_coords; auto.
        - assert (x = y) as Exy by (destruct (Nat.eqb_spec x y); auto; destruct (Nat.eqb_spec x 1), (Nat.eqb_spec y 1); try contradiction; discriminate).
          exists t1, t2. rewrite Exy, Nat.eqb_refl. split; [reflexivity|]. split; [auto|]. split; [auto|].
          split; [intros k; destruct (Nat.eqb_spec k k1) as [->|]; lia|]. split; [intros k; destruct (Nat.eqb_spec k k2) as [->|]; lia|]. auto. }
      destruct P as (t1' & t2' & -> & L1' & L2' & S1 & S2 & V1 & V2).
      assert (Gg : forall (r : list nat) k v (t t' : dense R), ~ In k r -> (forall j, nth j (dsh t') 0 = if j =? k then v else nth j (dsh t) 0) -> gather 0 r (dsh t') = gather 0 r (dsh t)).
      { intros r k v t t' Hn Hv. apply map_ext_in. intros j Hj. rewrite Hv. destruct (Nat.eqb_spec j k) as [->|]; auto. contradiction. }
      destruct (IH r2 (e1 ++ [k1]) (e2 ++ [k2]) t1' t2' (cs * msz1 x y) D1 D2 L F L1' L2'
        (eq_trans (Gg r1 k1 _ t1 t1' J1 S1) G1) (eq_trans (Gg r2 k2 _ t2 t2' J2 S2) G2)) as (u1 & u2 & -> & U1 & U2 & W1 & W2 & H1 & H2 & Q1 & Q2).
      exists u1, u2. cbn [gather map map2 prod_list fold_right]. fold x y. rewrite Nat.mul_assoc. split; [reflexivity|]. split; [auto|]. split; [auto|].
      split. { intros k Hk. rewrite W1 by (intros H; apply Hk; cbn; auto). rewrite S1. destruct (Nat.eqb_spec k k1) as [->|]; auto. exfalso. apply Hk. cbn. auto. }
      split. { intros k Hk. rewrite W2 by (intros H; apply Hk; cbn; auto). rewrite S2. destruct (Nat.eqb_spec k k2) as [->|]; auto. exfalso. apply Hk. cbn. auto. }
      split. { f_equal; [|exact H1]. rewrite W1, S1, Nat.eqb_refl by auto. reflexivity. }
      split. { f_equal; [|exact H2]. rewrite W2, S2, Nat.eqb_refl by auto. reflexivity. }
      split.
      + intros pre [|h c] i Hp Hc; [discriminate|]. injection Hc as Hc. cbn [red1 hd tl]. fold x y.
        replace (pre ++ h :: c) with ((pre ++ [h]) ++ c) by (rewrite <- app_assoc; reflexivity).
        rewrite Q1 by (rewrite ?app_length; cbn; lia). apply red1_ext. intros c'. rewrite <- app_assoc. cbn [app]. apply V1. auto.
      + intros pre [|h c] i Hp Hc; [discriminate|]. injection Hc as Hc. cbn [red2 hd tl]. fold x y.
        replace (pre ++ h :: c) with ((pre ++ [h]) ++ c) by (rewrite <- app_assoc; reflexivity).
        rewrite Q2 by (rewrite ?app_length; cbn; lia). apply red2_ext. intros c'. rewrite <- app_assoc. cbn [app]. apply V2. auto.
  Qed.
End Loop.

Section Product.
  Context {R : ring}.
  Add Ring Rr3 : (ring_th R).
  Variables A B : dense R.
  Variables d1 d2 : list nat.
  Notation n1 := (length (dsh A)).
  Notation n2 := (length (dsh B)).

  (** The value of [torch::tensordot] when it has one. *)
  Lemma tdot_inv P : t_tdot A B d1 d2 = Ok P ->
    length d1 = length d2 /\ (NoDup d1 /\ forall k, In k d1 -> k < n1) /\ (NoDup d2 /\ forall k, In k d2 -> k < n2) /\
    forallb (fun '(x, y) => (x =? y) || (x =? 1) || (y =? 1)) (combine (gather 0 d1 (dsh A)) (gather 0 d2 (dsh B))) = true /\
    P = mkD (gather 0 (free n1 d1) (dsh A) ++ gather 0 (free n2 d2) (dsh B))
      (fun i => sumf R (fun c => rmul (dv A (coords n1 d1 (map2 clamp (gather 0 d1 (dsh A)) c) (firstn (length (free n1 d1)) i)))
                                      (dv B (coords n2 d2 (map2 clamp (gather 0 d2 (dsh B)) c) (skipn (length (free n1 d1)) i))))
        (idxs (map2 bsize (gather 0 d1 (dsh A)) (gather 0 d2 (dsh B))))).
  Proof.
    unfold t_tdot. destruct (Nat.eqb_spec (length d1) (length d2)) as [L|]; [|discriminate]. cbn [negb orb].
    destruct (bitset_ok d1 n1) eqn:B1; [|discriminate]. destruct (bitset_ok d2 n2) eqn:B2; [|discriminate]. cbn [negb orb].
    destruct (forallb _ _) eqn:F; [|discriminate]. cbn [negb]. intros [= <-]. apply bitset_ok_spec in B1. apply bitset_ok_spec in B2. auto 10.
  Qed.

  Lemma perm_ok (p : list nat) (t : dense R) : is_perm p (length (dsh t)) -> t_perm p t = Ok (d_permute p t).
  Proof.
    intros H. unfold t_perm. rewrite (is_perm_length H), Nat.eqb_refl.
    replace (bitset_ok p (length (dsh t))) with true; [reflexivity|]. symmetry. apply bitset_ok_spec. split; [exact (is_perm_NoDup H)|].
    intros k Hk. apply (Permutation.Permutation_in _ H) in Hk. apply in_seq in Hk. lia.
  Qed.

  Lemma product P : t_tdot A B d1 d2 = Ok P ->
    exists p a b r, compute_shape (dsh P) A B d1 d2 = Ok p /\ matrices p = Ok (a, b) /\ pl_sizes p = dsh P /\
      prod_list (dsh P) = pl_m p * pl_n p /\ t_mm a b = Ok r /\ dsh r = [pl_m p; pl_n p] /\
      pl_m p = prod_list (gather 0 (free n1 d1) (dsh A)) /\ pl_n p = prod_list (gather 0 (free n2 d2) (dsh B)) /\
      forall i x y, in_range (dsh P) i = true -> y < pl_n p -> rowmajor (dsh P) i = x * pl_n p + y -> dv r [x; y] = dv P i.
  Proof.
    intros H. apply tdot_inv in H. destruct H as (L & (N1 & I1) & (N2 & I2) & F & ->). cbn [dsh dv].
    set (f1 := gather 0 (free n1 d1) (dsh A)). set (f2 := gather 0 (free n2 d2) (dsh B)).
    destruct (@loop_spec R A B d1 d2 N1 N2 I1 I2 d1 d2 [] [] A B 1 eq_refl eq_refl L F eq_refl eq_refl eq_refl eq_refl)
      as (u1 & u2 & E & U1 & U2 & W1 & W2 & H1 & H2 & Q1 & Q2).
    set (k := msz (gather 0 d1 (dsh A)) (gather 0 d2 (dsh B))) in *. rewrite Nat.mul_1_l in E.
    assert (S1 : gather 0 (free n1 d1) (dsh u1) = f1) by (apply map_ext_in; intros j Hj; apply free_In in Hj; apply W1; tauto).
    assert (S2 : gather 0 (free n2 d2) (dsh u2) = f2) by (apply map_ext_in; intros j Hj; apply free_In in Hj; apply W2; tauto).
    assert (P1 : is_perm (free n1 d1 ++ d1) (length (dsh u1))) by (rewrite U1; apply free_perm; auto).
    assert (P2 : is_perm (d2 ++ free n2 d2) (length (dsh u2))) by (rewrite U2; apply perm_app_comm, free_perm; auto).
    assert (E1 : dsh (d_permute (free n1 d1 ++ d1) u1) = f1 ++ k) by (cbn [d_permute dsh]; rewrite gather_app, S1, H1; reflexivity).
    assert (E2 : dsh (d_permute (d2 ++ free n2 d2) u2) = k ++ f2) by (cbn [d_permute dsh]; rewrite gather_app, S2, H2; reflexivity).
    exists (mkPlan u1 u2 (free n1 d1 ++ d1) (d2 ++ free n2 d2) (f1 ++ f2) (prod_list f1) (prod_list k) (prod_list f2)).
    exists (mat (length f1) (d_permute (free n1 d1 ++ d1) u1)), (mat (length k) (d_permute (d2 ++ free n2 d2) u2)).
    assert (T1 : dsh (mat (length f1) (d_permute (free n1 d1 ++ d1) u1)) = [prod_list f1; prod_list k]) by (apply mat_dsh; exact E1).
    assert (T2 : dsh (mat (length k) (d_permute (d2 ++ free n2 d2) u2)) = [prod_list k; prod_list f2]) by (apply mat_dsh; exact E2).
    eexists. split; [|split; [|split; [reflexivity|split; [apply prod_list_app|split; [unfold t_mm; rewrite T1, T2, Nat.eqb_refl; reflexivity|split; [reflexivity|split; [reflexivity|split; [reflexivity|]]]]]]]].
    - unfold compute_shape. rewrite L, Nat.eqb_refl. cbn [negb]. rewrite E. cbn [rbind].
      replace (bitset_ok d1 n1) with true by (symmetry; apply bitset_ok_spec; auto). replace (bitset_ok d2 n2) with true by (symmetry; apply bitset_ok_spec; auto). cbn [negb andb].
      change (others n1 d1) with (free n1 d1). change (others n2 d2) with (free n2 d2).
      rewrite (rmapM_pure (t_size u1) (fun j => nth j (dsh u1) 0)) by (intros j Hj; apply free_In in Hj; apply t_size_ok; lia). cbn [rbind].
      rewrite (rmapM_pure (t_size u2) (fun j => nth j (dsh u2) 0)) by (intros j Hj; apply free_In in Hj; apply t_size_ok; lia). cbn [rbind].
      change (map (fun j => nth j (dsh u1) 0) (free n1 d1)) with (gather 0 (free n1 d1) (dsh u1)).
      change (map (fun j => nth j (dsh u2) 0) (free n2 d2)) with (gather 0 (free n2 d2) (dsh u2)). rewrite S1, S2, leqb_refl. reflexivity.
    - unfold matrices. cbn [pl_p1 pl_p2 pl_t1 pl_t2 pl_m pl_k pl_n]. rewrite (perm_ok _ P1). cbn [rbind].
      unfold t_reshape at 1. rewrite E1, prod_list_app. replace (prod_list [prod_list f1; prod_list k]) with (prod_list f1 * prod_list k) by (cbn; lia). rewrite Nat.eqb_refl. cbn [rbind].
      rewrite (perm_ok _ P2). cbn [rbind].
      unfold t_reshape at 1. rewrite E2, prod_list_app. replace (prod_list [prod_list k; prod_list f2]) with (prod_list k * prod_list f2) by (cbn; lia). rewrite Nat.eqb_refl. cbn [rbind].
      unfold mat. rewrite E1, E2, !firstn_mid, !skipn_mid. reflexivity.
    - cbn [pl_n dv nth]. intros i x y Hi Hy Ei. apply ChainInst.in_range_app in Hi. destruct Hi as [Hi1 Hi2].
      set (o1 := firstn (length f1) i) in *. set (o2 := skipn (length f1) i) in *.
      assert (Li : i = o1 ++ o2) by (symmetry; apply firstn_skipn). rewrite Li, rowmajor_app in Ei by (apply in_range_length; auto).
      pose proof (rowmajor_lt _ _ Hi2) as B2.
      assert (Ex : x = rowmajor f1 o1) by nia. assert (Ey : y = rowmajor f2 o2) by nia. subst x y.
      replace (length (free n1 d1)) with (length f1) by apply gather_length. fold o1 o2.
      rewrite red_sum with (a := fun c => dv A (coords n1 d1 c o1)) (b := fun c => dv B (coords n2 d2 c o2)); [|rewrite !gather_length; auto|auto]. fold k.
      rewrite <- sum_ranks. apply sumf_ext. intros c Hc. apply idxs_In in Hc. rewrite (mat_dv _ _ _ _ _ E1 Hi1 Hc), (mat_dv _ _ _ _ _ E2 Hc Hi2). cbn [d_permute dv].
      assert (Lk : length k = length d1) by (rewrite <- H1; apply gather_length).
      pose proof (in_range_length _ _ Hc) as Lc. rewrite Lk in Lc.
      pose proof (in_range_length _ _ Hi1) as L1. unfold f1 in L1 at 1. rewrite gather_length in L1.
      rewrite <- (@coords_l n1 d1 c o1) by auto. rewrite <- (@coords_r n2 d2 c o2) by (auto; lia).
      specialize (Q1 [] c o1 eq_refl Lc). specialize (Q2 [] c o2 eq_refl (eq_trans Lc L)). cbn [app] in Q1, Q2. rewrite Q1, Q2. reflexivity.
  Qed.

  (** Outside of the domain of [torch::tensordot] there is no plan. *)
  Lemma loop_throws r1 : forall r2 t1 t2 cs, (forall k, In k r1 -> k < n1) -> (forall k, In k r2 -> k < n2) -> length r1 = length r2 ->
    forallb (fun '(x, y) => (x =? y) || (x =? 1) || (y =? 1)) (combine (gather 0 r1 (dsh A)) (gather 0 r2 (dsh B))) = false ->
    sum_broadcast A B (combine r1 r2) t1 t2 cs = Throw TorchError.
  Proof.
    induction r1 as [|k1 r1 IH]; intros [|k2 r2] t1 t2 cs I1 I2 L F; try discriminate. injection L as L.
    cbn [combine sum_broadcast]. rewrite (t_size_ok A) by (apply I1; cbn; auto). rewrite (t_size_ok B) by (apply I2; cbn; auto). cbn [rbind].
    cbn [gather map combine forallb] in F. fold (gather 0 r1 (dsh A)) in F. fold (gather 0 r2 (dsh B)) in F.
    assert (J1 : forall k, In k r1 -> k < n1) by (intros k Hk; apply I1; cbn; auto). assert (J2 : forall k, In k r2 -> k < n2) by (intros k Hk; apply I2; cbn; auto).
    destruct (Nat.eqb_spec (nth k2 (dsh B) 0) 1) as [Hy|Hy]; [rewrite Hy, orb_true_r in F; auto|].
    destruct (Nat.eqb_spec (nth k1 (dsh A) 0) 1) as [Hx|Hx]; [rewrite orb_true_r in F; auto|].
    destruct (Nat.eqb_spec (nth k1 (dsh A) 0) (nth k2 (dsh B) 0)); [cbn in F; auto|reflexivity].
  Qed.
  Lemma loop_total r : forall t1 t2 cs, (exists x, sum_broadcast A B r t1 t2 cs = Ok x) \/ sum_broadcast A B r t1 t2 cs = Throw TorchError.
  Proof.
    induction r as [|[k1 k2] r IH]; intros t1 t2 cs; cbn [sum_broadcast]; [eauto|]. unfold t_size. destruct (nth_error (dsh A) k1); cbn [rbind]; auto.
    destruct (nth_error (dsh B) k2); cbn [rbind]; auto. destruct (_ =? 1); auto. destruct (_ =? 1); auto. destruct (_ =? _); auto.
  Qed.
  Lemma no_plan sh : (forall P, t_tdot A B d1 d2 = Ok P -> dsh P <> sh) -> compute_shape sh A B d1 d2 = Throw TorchError.
  Proof.
    intros H. destruct (t_tdot A B d1 d2) as [P| |] eqn:E.
    - specialize (H P eq_refl). destruct (product E) as (p & a & b & r & Ec & _ & _ & _).
      unfold compute_shape in *. destruct (negb _); auto. destruct (sum_broadcast _ _ _ _ _ _) as [[[u1 u2] cs]| |]; cbn [rbind] in *; try discriminate.
      destruct (negb _); auto. destruct (rmapM (t_size u1) _) as [s1| |]; cbn [rbind] in *; try discriminate.
      destruct (rmapM (t_size u2) _) as [s2| |]; cbn [rbind] in *; try discriminate. destruct (leqb (s1 ++ s2) (dsh P)) eqn:E1; [|discriminate].
      apply leqb_eq in E1. destruct (leqb (s1 ++ s2) sh) eqn:E2; auto. apply leqb_eq in E2. congruence.
    - clear H. unfold compute_shape. unfold t_tdot in E. destruct (Nat.eqb_spec (length d1) (length d2)) as [L|]; cbn [negb orb] in *; auto.
      destruct (loop_total (combine d1 d2) A B 1) as [([[u1 u2] cs] & El)|El]; rewrite El; cbn [rbind]; auto.
      destruct (bitset_ok d1 n1) eqn:B1; cbn [negb orb andb] in *; auto. destruct (bitset_ok d2 n2) eqn:B2; cbn [negb orb andb] in *; auto.
      exfalso. apply bitset_ok_spec in B1. apply bitset_ok_spec in B2. destruct (forallb _ _) eqn:F; cbn [negb] in E; [discriminate|].
      rewrite loop_throws in El; try tauto; discriminate.
    - unfold t_tdot in E. destruct (_ || _); [discriminate|]. destruct (negb _); discriminate.
  Qed.
End Product.
