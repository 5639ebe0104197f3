(** The chain algorithms, for any tensor operations that represent the dense ones. *)
From Verif Require Import Base Ring SpecIndex Dense IndexProofs SpecTensordot Chain SpecChain ChainProofs.
Set Implicit Arguments.

Section G.
  Variable R : ring.
  Add Ring Rring : (ring_th R).
  Variables (T K : Type) (tl : T -> list K) (dual : K -> K) (ksize : K -> nat) (k0 : K) (den : T -> dense R -> Prop).
  Variable tdot : T -> T -> list nat -> list nat -> result T.
  Variable tconj : T -> T.
  Variable tperm : list nat -> T -> result T.
  Hypothesis dual_dual : forall k, dual (dual k) = k.
  Hypothesis dual_size : forall k, ksize (dual k) = ksize k.
  Hypothesis den_shape : forall t D, den t D -> dsh D = map ksize (tl t).
  Hypothesis den_tdot : forall A B DA DB d1 d2, den A DA -> den B DB -> length d1 = length d2 -> NoDup d1 -> NoDup d2 ->
    (forall k, In k d1 -> k < length (tl A)) -> (forall k, In k d2 -> k < length (tl B)) ->
    gather k0 d1 (tl A) = map dual (gather k0 d2 (tl B)) -> 0 < length (tl A) -> 0 < length (tl B) ->
    exists C, tdot A B d1 d2 = Ok C /\ tl C = gather k0 (free (length (tl A)) d1) (tl A) ++ gather k0 (free (length (tl B)) d2) (tl B) /\
      den C (d_tdot DA DB d1 d2).
  Hypothesis den_conj : forall A DA, den A DA -> tl (tconj A) = map dual (tl A) /\ den (tconj A) (d_map rconj DA).
  Hypothesis den_perm : forall A DA p, den A DA -> length p = length (tl A) -> NoDup p -> (forall k, In k p -> k < length (tl A)) ->
    exists C, tperm p A = Ok C /\ tl C = gather k0 p (tl A) /\ den C (d_permute p DA).

  Ltac tred_in H := cbv beta iota delta [length free gather seq filter map nth existsb Nat.eqb negb orb app] in H.
  Ltac tred0 := cbv beta iota delta [length free gather seq filter map nth existsb Nat.eqb negb orb app].
  Ltac nodup := repeat (apply NoDup_cons; [cbn; intuition discriminate|]); apply NoDup_nil.
  Ltac inl := let k := fresh in let H := fresh in intros k H; cbn in H |- *; intuition lia.
  (** One contraction of tensors with known dimensions. *)
  Ltac contr D1 D2 E1 E2 :=
    let C := fresh "C" in let EC := fresh "EC" in let TC := fresh "TC" in let DC := fresh "DC" in
    match type of D1 with den ?A _ => match type of D2 with den ?B _ =>
      match goal with |- context [tdot A B ?d1 ?d2] => destruct (den_tdot (d1 := d1) (d2 := d2) D1 D2) as (C & EC & TC & DC) end end end;
    [ | | | | | | |
    | rewrite EC; rewrite E1, E2 in TC; tred_in TC; cbn [rbind] ];
    [ reflexivity | nodup | nodup | rewrite E1; inl | rewrite E2; inl
    | rewrite E1, E2; tred0; rewrite ?dual_dual; reflexivity | rewrite E1; cbn; lia | rewrite E2; cbn; lia | ].

  Lemma left_step_ok h a b l Dh Da Db Dl x o y s s' x1 o1 y1 : den h Dh -> den a Da -> den b Db -> den l Dl ->
    tl l = [x; o; dual y] -> tl a = [dual x; s; x1] -> tl h = [dual o; s'; o1; dual s] -> tl b = [dual y; s'; y1] ->
    exists l', left_step tdot tconj h a b l = Ok l' /\ tl l' = [x1; o1; dual y1] /\ den l' (d_left Dl Dh Da Db).
  Proof.
    intros Hh Ha Hb Hl El Ea Eh Eb. unfold left_step. contr Hl Ha El Ea. contr DC Hh TC Eh.
    destruct (den_conj Hb) as [Ec Hc]. rewrite Eb in Ec. cbn in Ec. rewrite dual_dual in Ec. contr DC0 Hc TC0 Ec.
    exists C1. split; [reflexivity|]. split; [exact TC1|]. exact DC1.
  Qed.
  Lemma right_step_ok h a r Dh Da Dr x o y s s' x1 o1 y1 : den h Dh -> den a Da -> den r Dr ->
    tl r = [dual x1; dual o1; y1] -> tl a = [dual x; s; x1] -> tl h = [dual o; s'; o1; dual s] -> y1 = x1 -> s' = s -> y = x ->
    exists r', compute_right_env tdot tconj h a r = Ok r' /\ tl r' = [dual x; dual o; y] /\ den r' (d_right Dr Dh Da Da).
  Proof.
    intros Hh Ha Hr Er Ea Eh -> -> ->. unfold compute_right_env. contr Hr Ha Er Ea. contr DC Hh TC Eh.
    destruct (den_conj Ha) as [Ec Hc]. rewrite Ea in Ec. cbn in Ec. rewrite dual_dual in Ec. contr DC0 Hc TC0 Ec.
    exists C1. split; [reflexivity|]. split; [exact TC1|]. exact DC1.
  Qed.
  Ltac inn := apply sumf_ext; intros ? ?.
  Tactic Notation "pulln" integer(n) := eapply eq_trans; [do n (apply pull; intro); reflexivity|cbn beta].

  (** Sums over the three bonds at an end. *)
  Definition sum3 (x o y : K) (f : nat -> nat -> nat -> R) : R :=
    sum p < ksize x, sum q < ksize o, sum r < ksize y, f p q r.
  Lemma sum3_ext x o y f g : (forall p q r, p < ksize x -> q < ksize o -> r < ksize y -> f p q r = g p q r) -> sum3 x o y f = sum3 x o y g.
  Proof. intros H. unfold sum3. inn. inn. inn. rewrite in_seq in *. apply H; lia. Qed.
  Lemma sum3_swap x o y x' o' y' (f : nat -> nat -> nat -> nat -> nat -> nat -> R) :
    sum3 x o y (fun p q r => sum3 x' o' y' (f p q r)) = sum3 x' o' y' (fun p' q' r' => sum3 x o y (fun p q r => f p q r p' q' r')).
  Proof. unfold sum3. pulln 3. inn. pulln 3. inn. pulln 3. reflexivity. Qed.
  Lemma sum3_mul_l x o y c f : sum3 x o y (fun p q r => rmul c (f p q r)) = rmul c (sum3 x o y f).
  Proof. unfold sum3. rewrite <- sumf_mul_l. inn. rewrite <- sumf_mul_l. inn. rewrite <- sumf_mul_l. reflexivity. Qed.
  Lemma sum3_mul_r x o y c f : sum3 x o y (fun p q r => rmul (f p q r) c) = rmul (sum3 x o y f) c.
  Proof. unfold sum3. rewrite <- sumf_mul_r. inn. rewrite <- sumf_mul_r. inn. rewrite <- sumf_mul_r. reflexivity. Qed.
  Lemma sum3_delta x o y f i j k : i < ksize x -> j < ksize o -> k < ksize y ->
    sum3 x o y (fun p q r => rmul (f p q r) (element (R := R) [] [] [] p q r i j k)) = f i j k.
  Proof.
    intros Hi Hj Hk. unfold sum3. rewrite <- (sum_delta R (fun p => f p j k) Hi). inn.
    rewrite <- (sum_delta R (fun q => f a q k) Hj), <- sumf_mul_r. inn.
    rewrite <- (sum_delta R (fun r => f a a0 r) Hk), <- sumf_mul_r, <- sumf_mul_r. inn. rewrite element_nil. ring.
  Qed.
  Lemma sum3_delta' x o y f i j k : i < ksize x -> j < ksize o -> k < ksize y ->
    sum3 x o y (fun p q r => rmul (element (R := R) [] [] [] i j k p q r) (f p q r)) = f i j k.
  Proof.
    intros Hi Hj Hk. rewrite <- (@sum3_delta x o y f i j k Hi Hj Hk). apply sum3_ext. intros p q r _ _ _. rewrite !element_nil.
    rewrite (Nat.eqb_sym p i), (Nat.eqb_sym q j), (Nat.eqb_sym r k). ring.
  Qed.

  Lemma sizes3 t D x o y : den t D -> tl t = [x; o; y] -> dsh D = [ksize x; ksize o; ksize y].
  Proof. intros HD E. rewrite (den_shape HD), E. reflexivity. Qed.
  Lemma sizes4 t D x o y z : den t D -> tl t = [x; o; y; z] -> dsh D = [ksize x; ksize o; ksize y; ksize z].
  Proof. intros HD E. rewrite (den_shape HD), E. reflexivity. Qed.

  Lemma element_cons' h a b Dh Da Db la lb lh x o y s s' x1 o1 y1 p q r i j k : den h Dh -> den a Da -> den b Db ->
    tl a = [x; s; x1] -> tl h = [o; s'; o1; dual s] -> tl b = [y; s'; y1] ->
    element (Da :: la) (Db :: lb) (Dh :: lh) p q r i j k =
    sum3 x1 o1 y1 (fun p1 q1 r1 => rmul (W Dh Da Db p q r p1 q1 r1) (element la lb lh p1 q1 r1 i j k)).
  Proof.
    intros Hh Ha Hb Ea Eh Eb. rewrite element_cons by reflexivity. unfold sum3.
    unfold size at 1 2 3. rewrite (sizes3 Ha Ea), (sizes3 Hb Eb), (sizes4 Hh Eh). reflexivity.
  Qed.

  Lemma contract_obs_loop_ok a : forall b h l x o y x' o' y' Da Db Dh Dl, Forall2 den a Da -> Forall2 den b Db -> Forall2 den h Dh -> den l Dl ->
    tl l = [x; o; dual y] -> mps_fit tl dual a x x' -> mps_fit tl dual b y y' -> mpo_fit tl dual h a b o o' ->
    exists l' Dl', contract_obs_loop tdot tconj a b h l = Ok l' /\ tl l' = [x'; o'; dual y'] /\ den l' Dl' /\
      forall i j k, i < ksize x' -> j < ksize o' -> k < ksize y' ->
        dv Dl' [i; j; k] = sum3 x o y (fun p q r => rmul (dv Dl [p; q; r]) (element Da Db Dh p q r i j k)).
  Proof.
    induction a as [|a la IH]; intros b h l x o y x' o' y' Da Db Dh Dl HDa HDb HDh HDl El Fa Fb Fh.
    - destruct h, b; cbn in Fh; try contradiction. cbn in Fa, Fb. subst x' y' o'. inversion HDa; inversion HDb; inversion HDh; subst.
      exists l, Dl. cbn. split; [reflexivity|]. split; [assumption|]. split; [assumption|]. intros i j k Hi Hj Hk.
      symmetry. exact (@sum3_delta x o y (fun p q r => dv Dl [p; q; r]) i j k Hi Hj Hk).
    - destruct h as [|h lh]; [cbn in Fh; contradiction|]. destruct b as [|b lb]; [cbn in Fh; contradiction|].
      cbn [mpo_fit] in Fh. destruct Fh as (o1 & s & s' & Eh & Es & Es' & Fh). cbn [mps_fit] in Fa, Fb. destruct Fa as (s1 & x1 & Ea & Fa).
      destruct Fb as (s2 & y1 & Eb & Fb). rewrite Ea in Es. rewrite Eb in Es'. cbn in Es, Es'. injection Es as <-. injection Es' as <-.
      inversion HDa as [|? Da0 ? Dla Ha HDa']; subst. inversion HDb as [|? Db0 ? Dlb Hb HDb']; subst. inversion HDh as [|? Dh0 ? Dlh Hh HDh']; subst.
      cbn [contract_obs_loop]. destruct (left_step_ok Hh Ha Hb HDl El Ea Eh Eb) as (l1 & E1 & El1 & HDl1). rewrite E1. cbn [rbind].
      destruct (IH _ _ _ _ _ _ _ _ _ _ _ _ _ HDa' HDb' HDh' HDl1 El1 Fa Fb Fh) as (l' & Dl' & E' & El' & HDl' & V').
      exists l', Dl'. split; [exact E'|]. split; [exact El'|]. split; [exact HDl'|]. intros i j k Hi Hj Hk. rewrite V' by auto.
      pose proof (sizes3 HDl El) as S1. pose proof (sizes3 Ha Ea) as S2. pose proof (sizes4 Hh Eh) as S3. pose proof (sizes3 Hb Eb) as S4.
      rewrite !dual_size in *. destruct (d_left_val Dl Dh0 Da0 Db0 S1 S2 S3 S4) as [_ VL].
      transitivity (sum3 x1 o1 y1 (fun p1 q1 r1 => sum3 x o y (fun p q r => rmul (rmul (dv Dl [p; q; r]) (W Dh0 Da0 Db0 p q r p1 q1 r1))
                      (element Dla Dlb Dlh p1 q1 r1 i j k)))).
      + apply sum3_ext. intros p1 q1 r1 _ _ _. rewrite VL, sum3_mul_r. reflexivity.
      + rewrite sum3_swap. apply sum3_ext. intros p q r _ _ _. rewrite (element_cons' _ _ _ _ _ _ _ _ _ Hh Ha Hb Ea Eh Eb), <- sum3_mul_l.
        apply sum3_ext. intros p1 q1 r1 _ _ _. ring.
  Qed.

  (** C46 with an observable. *)
  Lemma contract_obs_ok a b h l e x o y x' o' y' Da Db Dh Dl De : Forall2 den a Da -> Forall2 den b Db -> Forall2 den h Dh -> den l Dl -> den e De ->
    tl l = [x; o; dual y] -> tl e = [dual x'; dual o'; y'] ->
    mps_fit tl dual a x x' -> mps_fit tl dual b y y' -> mpo_fit tl dual h a b o o' ->
    exists s Ds, contract_obs tdot tconj a b h l e = Ok s /\ tl s = [] /\ den s Ds /\ dv Ds [] = expectation Da Db Dh Dl De.
  Proof.
    intros HDa HDb HDh HDl HDe El Ee Fa Fb Fh. destruct (@contract_obs_loop_ok a b h l x o y x' o' y' Da Db Dh Dl HDa HDb HDh HDl El Fa Fb Fh) as (l' & Dl' & E' & El' & HDl' & V').
    unfold contract_obs. rewrite E'. cbn [rbind]. contr HDl' HDe El' Ee.
    exists C, (d_tdot Dl' De [0; 1; 2] [0; 1; 2]). split; [reflexivity|]. split; [exact TC|]. split; [exact DC|].
    unfold expectation, size. pose proof (sizes3 HDl El) as S1. pose proof (sizes3 HDe Ee) as S2. pose proof (sizes3 HDl' El') as S3.
    rewrite !dual_size in *. rewrite S1, S2. unfold d_tdot. cbn [dv]. rewrite S2, S3.
    cbv beta iota delta [length free gather seq filter map nth existsb Nat.eqb negb orb app firstn skipn coords slot index_of].
    change (sumf R (fun c => (rmul (dv Dl' [nth 0 c 0; nth 1 c 0; nth 2 c 0]) (dv De [nth 0 c 0; nth 1 c 0; nth 2 c 0]))) (idxs [ksize x'; ksize o'; ksize y']) =
      sum3 x o y (fun p q r => sum3 x' o' y' (fun p' q' r' => rmul (rmul (dv Dl [p; q; r]) (element Da Db Dh p q r p' q' r')) (dv De [p'; q'; r'])))).
    rewrite sum3_swap. rewrite sum_idxs_cons. unfold sum3 at 1. inn. rewrite sum_idxs_cons. inn. rewrite sum_idxs1. inn. rewrite in_seq in *.
    cbn [nth]. rewrite V' by lia. rewrite sum3_mul_r. reflexivity.
  Qed.

  (** Splitting a chain. *)
  Lemma element_app a1 : forall b1 h1 x o y x1 o1 y1 Da1 Db1 Dh1 Da2 Db2 Dh2 i j k i' j' k', Forall2 den a1 Da1 -> Forall2 den b1 Db1 -> Forall2 den h1 Dh1 ->
    mps_fit tl dual a1 x x1 -> mps_fit tl dual b1 y y1 -> mpo_fit tl dual h1 a1 b1 o o1 -> i < ksize x -> j < ksize o -> k < ksize y ->
    element (Da1 ++ Da2) (Db1 ++ Db2) (Dh1 ++ Dh2) i j k i' j' k' =
    sum3 x1 o1 y1 (fun p q r => rmul (element Da1 Db1 Dh1 i j k p q r) (element Da2 Db2 Dh2 p q r i' j' k')).
  Proof.
    induction a1 as [|a la IH]; intros b h x o y x' o' y' Da Db Dh Da2 Db2 Dh2 i j k i' j' k' HDa HDb HDh Fa Fb Fh Hi Hj Hk.
    - destruct h, b; cbn in Fh; try contradiction. cbn in Fa, Fb. subst x' y' o'. inversion HDa; inversion HDb; inversion HDh; subst.
      cbn [app]. symmetry. exact (@sum3_delta' x o y (fun p q r => element Da2 Db2 Dh2 p q r i' j' k') i j k Hi Hj Hk).
    - destruct h as [|h lh]; [cbn in Fh; contradiction|]. destruct b as [|b lb]; [cbn in Fh; contradiction|].
      cbn [mpo_fit] in Fh. destruct Fh as (o1 & s & s' & Eh & Es & Es' & Fh). cbn [mps_fit] in Fa, Fb. destruct Fa as (s1 & x1 & Ea & Fa).
      destruct Fb as (s2 & y1 & Eb & Fb). rewrite Ea in Es. rewrite Eb in Es'. cbn in Es, Es'. injection Es as <-. injection Es' as <-.
      inversion HDa as [|? Da0 ? Dla Ha HDa']; subst. inversion HDb as [|? Db0 ? Dlb Hb HDb']; subst. inversion HDh as [|? Dh0 ? Dlh Hh HDh']; subst.
      cbn [app]. rewrite (element_cons' _ _ _ _ _ _ _ _ _ Hh Ha Hb Ea Eh Eb).
      transitivity (sum3 x1 o1 y1 (fun p1 q1 r1 => sum3 x' o' y' (fun p q r => rmul (rmul (W Dh0 Da0 Db0 i j k p1 q1 r1) (element Dla Dlb Dlh p1 q1 r1 p q r))
                      (element Da2 Db2 Dh2 p q r i' j' k')))).
      + apply sum3_ext. intros p1 q1 r1 B1 B2 B3.
        rewrite (IH lb lh x1 o1 y1 x' o' y' Dla Dlb Dlh Da2 Db2 Dh2 p1 q1 r1 i' j' k' HDa' HDb' HDh' Fa Fb Fh B1 B2 B3), <- sum3_mul_l.
        apply sum3_ext. intros p q r _ _ _. ring.
      + rewrite sum3_swap. apply sum3_ext. intros p q r _ _ _. rewrite (element_cons' _ _ _ _ _ _ _ _ _ Hh Ha Hb Ea Eh Eb), <- sum3_mul_r. reflexivity.
  Qed.

  Lemma left_envs_loop h : forall a l, length a = length h -> left_envs tdot tconj h a l = contract_obs_loop tdot tconj a a h l.
  Proof.
    induction h as [|o h IH]; intros [|x a] l L; try discriminate; [reflexivity|]. cbn [left_envs contract_obs_loop]. unfold compute_left_env.
    destruct (left_step tdot tconj o x x l); cbn [rbind]; [|reflexivity|reflexivity]. apply IH. cbn in L. lia.
  Qed.
  Lemma mpo_fit_length h : forall a b x y, mpo_fit tl dual h a b x y -> length a = length h /\ length b = length h.
  Proof.
    induction h as [|o h IH]; intros [|s a] [|s' b] x y H; cbn in H; try contradiction; [auto|].
    destruct H as (k & p & p' & _ & _ & _ & H). apply IH in H. cbn. lia.
  Qed.
  (** C51: left environments. *)
  Lemma left_envs_ok h a l x o x' o' Da Dh Dl : Forall2 den a Da -> Forall2 den h Dh -> den l Dl ->
    tl l = [x; o; dual x] -> mps_fit tl dual a x x' -> mpo_fit tl dual h a a o o' ->
    exists l' Dl', left_envs tdot tconj h a l = Ok l' /\ tl l' = [x'; o'; dual x'] /\ den l' Dl' /\
      forall i j k, i < ksize x' -> j < ksize o' -> k < ksize x' ->
        dv Dl' [i; j; k] = sum3 x o x (fun p q r => rmul (dv Dl [p; q; r]) (element Da Da Dh p q r i j k)).
  Proof.
    intros HDa HDh HDl El Fa Fh. rewrite left_envs_loop by (apply mpo_fit_length in Fh; lia).
    exact (@contract_obs_loop_ok a a h l x o x x' o' x' Da Da Dh Dl HDa HDa HDh HDl El Fa Fa Fh).
  Qed.
  (** C51: right environments. *)
  Lemma right_envs_ok h : forall a r x o x' o' Da Dh Dr, Forall2 den a Da -> Forall2 den h Dh -> den r Dr ->
    tl r = [dual x'; dual o'; x'] -> mps_fit tl dual a x x' -> mpo_fit tl dual h a a o o' ->
    exists r' Dr', right_envs tdot tconj h a r = Ok r' /\ tl r' = [dual x; dual o; x] /\ den r' Dr' /\
      forall i j k, i < ksize x -> j < ksize o -> k < ksize x ->
        dv Dr' [i; j; k] = sum3 x' o' x' (fun p q s => rmul (element Da Da Dh i j k p q s) (dv Dr [p; q; s])).
  Proof.
    induction h as [|h lh IH]; intros a r x o x' o' Da Dh Dr HDa HDh HDr Er Fa Fh.
    - destruct a; cbn in Fh; try contradiction. cbn in Fa. subst x' o'. inversion HDa; inversion HDh; subst.
      exists r, Dr. cbn [right_envs]. split; [reflexivity|]. split; [assumption|]. split; [assumption|]. intros i j k Hi Hj Hk.
      symmetry. exact (@sum3_delta' x o x (fun p q s => dv Dr [p; q; s]) i j k Hi Hj Hk).
    - destruct a as [|a la]; [cbn in Fh; contradiction|].
      cbn [mpo_fit] in Fh. destruct Fh as (o1 & s & s' & Eh & Es & Es' & Fh). cbn [mps_fit] in Fa. destruct Fa as (s1 & x1 & Ea & Fa).
      rewrite Ea in Es, Es'. cbn in Es, Es'. injection Es as <-. injection Es' as <-.
      inversion HDa as [|? Da0 ? Dla Ha HDa']; subst. inversion HDh as [|? Dh0 ? Dlh Hh HDh']; subst.
      cbn [right_envs]. destruct (IH la r x1 o1 x' o' Dla Dlh Dr HDa' HDh' HDr Er Fa Fh) as (r1 & Dr1 & E1 & Er1 & HDr1 & V1). rewrite E1. cbn [rbind].
      destruct (right_step_ok (x := x) (o := o) (y := x) Hh Ha HDr1 Er1 Ea Eh eq_refl eq_refl eq_refl) as (r' & E' & Er' & HDr').
      exists r', (d_right Dr1 Dh0 Da0 Da0). split; [exact E'|]. split; [exact Er'|]. split; [exact HDr'|]. intros i j k Hi Hj Hk.
      pose proof (sizes3 HDr1 Er1) as S1. pose proof (sizes3 Ha Ea) as S2. pose proof (sizes4 Hh Eh) as S3.
      rewrite !dual_size in *. destruct (d_right_val Dr1 Dh0 Da0 Da0 S1 S2 S3 S2) as [_ VR]. rewrite VR.
      transitivity (sum3 x1 o1 x1 (fun p1 q1 r1 => sum3 x' o' x' (fun p q s => rmul (rmul (W Dh0 Da0 Da0 i j k p1 q1 r1) (element Dla Dla Dlh p1 q1 r1 p q s)) (dv Dr [p; q; s])))).
      + unfold sum3 at 1. inn. inn. inn. rewrite in_seq in *. rewrite V1 by lia. rewrite <- sum3_mul_l. apply sum3_ext. intros p q u _ _ _. ring.
      + rewrite sum3_swap. apply sum3_ext. intros p q u _ _ _. rewrite (element_cons' _ _ _ _ _ _ _ _ _ Hh Ha Ha Ea Eh Ea), <- sum3_mul_r. reflexivity.
  Qed.

  Lemma expectation_sum3 l e Dl De x o y x' o' y' Da Db Dh : den l Dl -> den e De -> tl l = [x; o; dual y] -> tl e = [dual x'; dual o'; y'] ->
    expectation Da Db Dh Dl De =
    sum3 x o y (fun p q r => sum3 x' o' y' (fun p' q' r' => rmul (rmul (dv Dl [p; q; r]) (element Da Db Dh p q r p' q' r')) (dv De [p'; q'; r']))).
  Proof.
    intros HDl HDe El Ee. unfold expectation, size. pose proof (sizes3 HDl El) as S1. pose proof (sizes3 HDe Ee) as S2.
    rewrite !dual_size in *. rewrite S1, S2. reflexivity.
  Qed.
  Lemma mps_fit_app a1 a2 : forall x y, mps_fit tl dual (a1 ++ a2) x y <-> exists z, mps_fit tl dual a1 x z /\ mps_fit tl dual a2 z y.
  Proof.
    induction a1 as [|a a1 IH]; intros x y; cbn [app mps_fit].
    - split; [intros H; exists x; auto|intros (z & -> & H); exact H].
    - split.
      + intros (s & k & E & H). apply IH in H. destruct H as (z & H1 & H2). exists z. split; [exists s, k; auto|exact H2].
      + intros (z & (s & k & E & H1) & H2). exists s, k. split; [exact E|]. apply IH. exists z. auto.
  Qed.
  Lemma mps_fit_fun a : forall x y y', mps_fit tl dual a x y -> mps_fit tl dual a x y' -> y = y'.
  Proof.
    induction a as [|a la IH]; intros x y y'; cbn [mps_fit]; [congruence|]. intros (s & k & E & H) (s' & k' & E' & H'). rewrite E in E'. injection E' as _ <-.
    eapply IH; eauto.
  Qed.
  Lemma mps_fit_inj a x x' y : mps_fit tl dual a x y -> mps_fit tl dual a x' y -> x = x'.
  Proof.
    destruct a as [|a la]; cbn [mps_fit]; [congruence|]. intros (s & k & E & _) (s' & k' & E' & _). rewrite E in E'. injection E' as E' _ _.
    rewrite <- (dual_dual x), <- (dual_dual x'), E'. reflexivity.
  Qed.
  Lemma mpo_fit_app h1 h2 : forall a1 a2 b1 b2 x y, length a1 = length h1 -> length b1 = length h1 ->
    mpo_fit tl dual (h1 ++ h2) (a1 ++ a2) (b1 ++ b2) x y -> exists z, mpo_fit tl dual h1 a1 b1 x z /\ mpo_fit tl dual h2 a2 b2 z y.
  Proof.
    induction h1 as [|h h1 IH]; intros [|a a1] a2 [|b b1] b2 x y La Lb H; try discriminate; cbn [app] in *.
    - exists x. split; [reflexivity|exact H].
    - cbn [mpo_fit] in H |- *. destruct H as (k & p & p' & E & Ep & Ep' & H). apply IH in H; [|cbn in La; lia|cbn in Lb; lia].
      destruct H as (z & H1 & H2). exists z. split; [exists k, p, p'; auto|exact H2].
  Qed.
  Lemma Forall2_two (P Q : Type) (f : P -> Q -> Prop) a a' l : Forall2 f [a; a'] l -> exists d d', l = [d; d'] /\ f a d /\ f a' d'.
  Proof. inversion 1 as [|? d ? l1 H1 H2]; subst. inversion H2 as [|? d' ? l2 H3 H4]; subst. inversion H4; subst. eauto. Qed.

  (** C51: the effective Hamiltonian is the derivative of the full contraction. *)
  Lemma heff_ok pre post a a' b b' hpre hpost h h' l e x o x' o' Dpre Dpost Dab Dbb Dhpre Dhpost Dhh Dl De :
    Forall2 den pre Dpre -> Forall2 den post Dpost -> Forall2 den [a; a'] Dab -> Forall2 den [b; b'] Dbb ->
    Forall2 den hpre Dhpre -> Forall2 den hpost Dhpost -> Forall2 den [h; h'] Dhh -> den l Dl -> den e De ->
    length hpre = length pre ->
    tl l = [x; o; dual x] -> tl e = [dual x'; dual o'; x'] ->
    mps_fit tl dual (pre ++ [a; a'] ++ post) x x' -> mps_fit tl dual (pre ++ [b; b'] ++ post) x x' ->
    mpo_fit tl dual (hpre ++ [h; h'] ++ hpost) (pre ++ [a; a'] ++ post) (pre ++ [b; b'] ++ post) o o' ->
    exists v Dv, (do L <- left_envs tdot tconj hpre pre l ; do E <- right_envs tdot tconj hpost post e ;
        do s <- merge tdot a a' ; do H <- two_sites_hamil tdot tperm h h' ; do t <- merge tdot b b' ;
        do p <- hamil2site_times_state tdot s H L E ; tdot p (tconj t) [0; 1; 2; 3] [0; 1; 2; 3]) = Ok v /\
      tl v = [] /\ den v Dv /\
      dv Dv [] = expectation (Dpre ++ Dab ++ Dpost) (Dpre ++ Dbb ++ Dpost) (Dhpre ++ Dhh ++ Dhpost) Dl De.
  Proof.
    intros HDpre HDpost HDab HDbb HDhpre HDhpost HDhh HDl HDe Lpre El Ee Fa Fb Fh.
    apply mpo_fit_app in Fh; [|lia|lia]. destruct Fh as (om & Fh1 & Fh2). apply (mpo_fit_app [h; h'] hpost [a; a'] post [b; b'] post) in Fh2; [|reflexivity|reflexivity].
    destruct Fh2 as (on & Fh2 & Fh3). apply mps_fit_app in Fa. destruct Fa as (xm & Fa1 & Fa2). apply (mps_fit_app [a; a'] post) in Fa2. destruct Fa2 as (xn & Fa2 & Fa3).
    apply mps_fit_app in Fb. destruct Fb as (ym & Fb1 & Fb2). apply (mps_fit_app [b; b'] post) in Fb2. destruct Fb2 as (yn & Fb2 & Fb3).
    pose proof (mps_fit_fun _ _ _ _ Fa1 Fb1). pose proof (mps_fit_inj _ _ _ _ Fa3 Fb3). subst ym yn.
    destruct (@left_envs_ok hpre pre l x o xm om Dpre Dhpre Dl HDpre HDhpre HDl El Fa1 Fh1) as (L & DL & EL & TL & HDL & VL).
    destruct (@right_envs_ok hpost post e xn on x' o' Dpost Dhpost De HDpost HDhpost HDe Ee Fa3 Fh3) as (E & DE & EE & TE & HDE & VE).
    rewrite EL, EE. cbn [rbind].
    cbn [mps_fit] in Fa2, Fb2. destruct Fa2 as (s & m & Ea & s' & m' & Ea' & ->). destruct Fb2 as (u & k & Eb & u' & k' & Eb' & ->).
    cbn [mpo_fit] in Fh2. destruct Fh2 as (n & s0 & u0 & Eh & Es & Eu & n' & s0' & u0' & Eh' & Es' & Eu' & ->).
    rewrite Ea in Es. rewrite Eb in Eu. rewrite Ea' in Es'. rewrite Eb' in Eu'. cbn in Es, Eu, Es', Eu'. injection Es as <-. injection Eu as <-. injection Es' as <-. injection Eu' as <-.
    apply Forall2_two in HDab. destruct HDab as (Da & Da' & -> & Ha & Ha'). apply Forall2_two in HDbb. destruct HDbb as (Db & Db' & -> & Hb & Hb').
    apply Forall2_two in HDhh. destruct HDhh as (Dh & Dh' & -> & Hh & Hh').
    unfold merge, two_sites_hamil, hamil2site_times_state.
    contr Ha Ha' Ea Ea'. contr Hh Hh' Eh Eh'.
    destruct (den_perm (p := [0; 1; 3; 4; 2; 5]) DC0) as (P & EP & TP & DP); [rewrite TC0; reflexivity|nodup|rewrite TC0; inl|].
    rewrite EP. cbn [rbind]. rewrite TC0 in TP. tred_in TP. contr Hb Hb' Eb Eb'. contr HDL DC TL TC. contr DC2 DP TC2 TP. contr DC3 HDE TC3 TE.
    destruct (den_conj DC1) as [Tc Dc]. rewrite TC1 in Tc. cbn in Tc. rewrite ?dual_dual in Tc. contr DC4 Dc TC4 Tc.
    exists C5, (d_tdot (d_heff DL DE Dh Dh' Da Da') (d_map rconj (d_tdot Db Db' [2] [0])) [0; 1; 2; 3] [0; 1; 2; 3]).
    split; [reflexivity|]. split; [exact TC5|]. split; [exact DC5|].
    pose proof (sizes3 HDL TL) as S1. pose proof (sizes3 HDE TE) as S2. pose proof (sizes4 Hh Eh) as S3. pose proof (sizes4 Hh' Eh') as S4.
    pose proof (sizes3 Ha Ea) as S5. pose proof (sizes3 Ha' Ea') as S6. pose proof (sizes3 Hb Eb) as S7. pose proof (sizes3 Hb' Eb') as S8.
    rewrite !dual_size in *.
    destruct (d_heff_val DL DE Dh Dh' Da Da' Db Db' S1 S2 S3 S4 S5 S6 S7 S8) as [_ V]. rewrite V.
    rewrite (expectation_sum3 _ _ _ HDL HDE TL TE), (expectation_sum3 _ _ _ HDl HDe El Ee).
    set (F := fun p q r p' q' r' i j k i' j' k' => rmul (rmul (rmul (dv Dl [i; j; k]) (element Dpre Dpre Dhpre i j k p q r))
      (element [Da; Da'] [Db; Db'] [Dh; Dh'] p q r p' q' r')) (rmul (element Dpost Dpost Dhpost p' q' r' i' j' k') (dv De [i'; j'; k']))).
    transitivity (sum3 xm om xm (fun p q r => sum3 xn on xn (fun p' q' r' => sum3 x o x (fun i j k => sum3 x' o' x' (fun i' j' k' => F p q r p' q' r' i j k i' j' k'))))).
    - apply sum3_ext. intros p q r B1 B2 B3. apply sum3_ext. intros p' q' r' B4 B5 B6. rewrite VL, VE by lia. rewrite <- sum3_mul_r, <- sum3_mul_r.
      apply sum3_ext. intros i j k0' _ _ _. rewrite <- sum3_mul_l. apply sum3_ext. intros i' j' k1' _ _ _. unfold F. ring.
    - symmetry. transitivity (sum3 x o x (fun i j k => sum3 x' o' x' (fun i' j' k' => sum3 xm om xm (fun p q r => sum3 xn on xn (fun p' q' r' => F p q r p' q' r' i j k i' j' k'))))).
      + apply sum3_ext. intros i j k0' B1 B2 B3. apply sum3_ext. intros i' j' k1' _ _ _.
        rewrite (@element_app pre pre hpre x o x xm om xm Dpre Dpre Dhpre ([Da; Da'] ++ Dpost) ([Db; Db'] ++ Dpost) ([Dh; Dh'] ++ Dhpost)) by auto.
        rewrite <- sum3_mul_l, <- sum3_mul_r. apply sum3_ext. intros p q r B4 B5 B6.
        rewrite (@element_app [a; a'] [b; b'] [h; h'] xm om xm xn on xn [Da; Da'] [Db; Db'] [Dh; Dh'] Dpost Dpost Dhpost).
        * rewrite <- !sum3_mul_l, <- sum3_mul_r. apply sum3_ext. intros p' q' r' _ _ _. unfold F. ring.
        * repeat constructor; auto.
        * repeat constructor; auto.
        * repeat constructor; auto.
        * exists s, m. split; [exact Ea|]. exists s', xn. split; [exact Ea'|reflexivity].
        * exists u, k. split; [exact Eb|]. exists u', xn. split; [exact Eb'|reflexivity].
        * exists n, s, u. split; [exact Eh|]. rewrite Ea, Eb. split; [reflexivity|]. split; [reflexivity|]. exists on, s', u'. split; [exact Eh'|].
          rewrite Ea', Eb'. repeat split.
        * exact B4.
        * exact B5.
        * exact B6.
      + transitivity (sum3 x o x (fun i j k => sum3 xm om xm (fun p q r => sum3 xn on xn (fun p' q' r' => sum3 x' o' x' (fun i' j' k' => F p q r p' q' r' i j k i' j' k'))))).
        * apply sum3_ext. intros i j k0' _ _ _. rewrite sum3_swap. apply sum3_ext. intros p q r _ _ _. apply sum3_swap.
        * rewrite sum3_swap. apply sum3_ext. intros p q r _ _ _. apply sum3_swap.
  Qed.

  (** Sums over two bonds. *)
  Definition sum2 (x y : K) (f : nat -> nat -> R) : R := sum p < ksize x, sum r < ksize y, f p r.
  Lemma sum2_ext x y f g : (forall p r, p < ksize x -> r < ksize y -> f p r = g p r) -> sum2 x y f = sum2 x y g.
  Proof. intros H. unfold sum2. inn. inn. rewrite in_seq in *. apply H; lia. Qed.
  Lemma sum2_swap x y x' y' (f : nat -> nat -> nat -> nat -> R) :
    sum2 x y (fun p r => sum2 x' y' (f p r)) = sum2 x' y' (fun p' r' => sum2 x y (fun p r => f p r p' r')).
  Proof. unfold sum2. pulln 2. inn. pulln 2. reflexivity. Qed.
  Lemma sum2_mul_l x y c f : sum2 x y (fun p r => rmul c (f p r)) = rmul c (sum2 x y f).
  Proof. unfold sum2. rewrite <- sumf_mul_l. inn. rewrite <- sumf_mul_l. reflexivity. Qed.
  Lemma sum2_mul_r x y c f : sum2 x y (fun p r => rmul (f p r) c) = rmul (sum2 x y f) c.
  Proof. unfold sum2. rewrite <- sumf_mul_r. inn. rewrite <- sumf_mul_r. reflexivity. Qed.
  Lemma sum2_delta x y f i k : i < ksize x -> k < ksize y -> sum2 x y (fun p r => rmul (f p r) (overlap (R := R) [] [] p r i k)) = f i k.
  Proof.
    intros Hi Hk. unfold sum2. rewrite <- (sum_delta R (fun p => f p k) Hi). inn.
    rewrite <- (sum_delta R (fun r => f a r) Hk), <- sumf_mul_r. inn. rewrite overlap_nil. ring.
  Qed.
  Lemma sizes2 t D x y : den t D -> tl t = [x; y] -> dsh D = [ksize x; ksize y].
  Proof. intros HD E. rewrite (den_shape HD), E. reflexivity. Qed.
  Lemma overlap_cons' a b Da Db la lb x y s x1 y1 p r i k : den a Da -> den b Db -> tl a = [x; s; x1] -> tl b = [y; s; y1] ->
    overlap (Da :: la) (Db :: lb) p r i k = sum2 x1 y1 (fun p1 r1 => rmul (V Da Db p r p1 r1) (overlap la lb p1 r1 i k)).
  Proof.
    intros Ha Hb Ea Eb. rewrite overlap_cons by (unfold size; rewrite (sizes3 Ha Ea), (sizes3 Hb Eb); reflexivity). unfold sum2.
    unfold size at 1 2. rewrite (sizes3 Ha Ea), (sizes3 Hb Eb). reflexivity.
  Qed.
  Lemma overlap_step_ok a b l Da Db Dl x y s x1 y1 : den a Da -> den b Db -> den l Dl ->
    tl l = [x; dual y] -> tl a = [dual x; s; x1] -> tl b = [dual y; s; y1] ->
    exists l', overlap_step tdot tconj a b l = Ok l' /\ tl l' = [x1; dual y1] /\ den l' (d_over Dl Da Db).
  Proof.
    intros Ha Hb Hl El Ea Eb. unfold overlap_step. contr Hl Ha El Ea.
    destruct (den_conj Hb) as [Ec Hc]. rewrite Eb in Ec. cbn in Ec. rewrite dual_dual in Ec. contr DC Hc TC Ec.
    exists C0. split; [reflexivity|]. split; [exact TC0|]. exact DC0.
  Qed.
  Lemma contract_loop_ok a : forall b l x y x' y' Da Db Dl, Forall2 den a Da -> Forall2 den b Db -> den l Dl ->
    tl l = [x; dual y] -> mps_fit tl dual a x x' -> mps_fit tl dual b y y' -> same_phys tl a b ->
    exists l' Dl', contract_loop tdot tconj a b l = Ok l' /\ tl l' = [x'; dual y'] /\ den l' Dl' /\
      forall i k, i < ksize x' -> k < ksize y' -> dv Dl' [i; k] = sum2 x y (fun p r => rmul (dv Dl [p; r]) (overlap Da Db p r i k)).
  Proof.
    induction a as [|a la IH]; intros b l x y x' y' Da Db Dl HDa HDb HDl El Fa Fb Fs.
    - destruct b; cbn in Fs; try contradiction. cbn in Fa, Fb. subst x' y'. inversion HDa; inversion HDb; subst.
      exists l, Dl. cbn. split; [reflexivity|]. split; [assumption|]. split; [assumption|]. intros i k Hi Hk.
      symmetry. exact (@sum2_delta x y (fun p r => dv Dl [p; r]) i k Hi Hk).
    - destruct b as [|b lb]; [cbn in Fs; contradiction|]. cbn [same_phys] in Fs. destruct Fs as (Es & Fs).
      cbn [mps_fit] in Fa, Fb. destruct Fa as (s1 & x1 & Ea & Fa).
      destruct Fb as (s2 & y1 & Eb & Fb). rewrite Ea, Eb in Es. cbn in Es. injection Es as <-.
      inversion HDa as [|? Da0 ? Dla Ha HDa']; subst. inversion HDb as [|? Db0 ? Dlb Hb HDb']; subst.
      cbn [contract_loop]. destruct (overlap_step_ok Ha Hb HDl El Ea Eb) as (l1 & E1 & El1 & HDl1). rewrite E1. cbn [rbind].
      destruct (IH _ _ _ _ _ _ _ _ _ HDa' HDb' HDl1 El1 Fa Fb Fs) as (l' & Dl' & E' & El' & HDl' & V').
      exists l', Dl'. split; [exact E'|]. split; [exact El'|]. split; [exact HDl'|]. intros i k Hi Hk. rewrite V' by auto.
      pose proof (sizes2 HDl El) as S1. pose proof (sizes3 Ha Ea) as S2. pose proof (sizes3 Hb Eb) as S4.
      rewrite !dual_size in *. destruct (d_over_val Dl Da0 Db0 S1 S2 S4) as [_ VL].
      transitivity (sum2 x1 y1 (fun p1 r1 => sum2 x y (fun p r => rmul (rmul (dv Dl [p; r]) (V Da0 Db0 p r p1 r1)) (overlap Dla Dlb p1 r1 i k)))).
      + apply sum2_ext. intros p1 r1 _ _. rewrite VL, sum2_mul_r. reflexivity.
      + rewrite sum2_swap. apply sum2_ext. intros p r _ _. rewrite (overlap_cons' _ _ _ _ _ _ Ha Hb Ea Eb), <- sum2_mul_l.
        apply sum2_ext. intros p1 r1 _ _. ring.
  Qed.
  (** C46 without observable. *)
  Lemma contract_ok a b l e x y x' y' Da Db Dl De : Forall2 den a Da -> Forall2 den b Db -> den l Dl -> den e De ->
    tl l = [x; dual y] -> tl e = [dual x'; y'] -> mps_fit tl dual a x x' -> mps_fit tl dual b y y' -> same_phys tl a b ->
    exists s Ds, contract tdot tconj a b l e = Ok s /\ tl s = [] /\ den s Ds /\ dv Ds [] = inner Da Db Dl De.
  Proof.
    intros HDa HDb HDl HDe El Ee Fa Fb Fs. destruct (@contract_loop_ok a b l x y x' y' Da Db Dl HDa HDb HDl El Fa Fb Fs) as (l' & Dl' & E' & El' & HDl' & V').
    unfold contract. rewrite E'. cbn [rbind]. contr HDl' HDe El' Ee.
    exists C, (d_tdot Dl' De [0; 1] [0; 1]). split; [reflexivity|]. split; [exact TC|]. split; [exact DC|].
    unfold inner, size. pose proof (sizes2 HDl El) as S1. pose proof (sizes2 HDe Ee) as S2. pose proof (sizes2 HDl' El') as S3.
    rewrite !dual_size in *. rewrite S1, S2. unfold d_tdot. cbn [dv]. rewrite S2, S3.
    cbv beta iota delta [length free gather seq filter map nth existsb Nat.eqb negb orb app firstn skipn coords slot index_of].
    change (sumf R (fun c => (rmul (dv Dl' [nth 0 c 0; nth 1 c 0]) (dv De [nth 0 c 0; nth 1 c 0]))) (idxs [ksize x'; ksize y']) =
      sum2 x y (fun p r => sum2 x' y' (fun p' r' => rmul (rmul (dv Dl [p; r]) (overlap Da Db p r p' r')) (dv De [p'; r'])))).
    rewrite sum2_swap. rewrite sum_idxs_cons. unfold sum2 at 1. inn. rewrite sum_idxs1. inn. rewrite in_seq in *.
    cbn [nth]. rewrite V' by lia. rewrite sum2_mul_r. reflexivity.
  Qed.

  (** C51: all the two-site Hamiltonians of a chain. *)
  Definition pair_of (t : T) (h h' : T) (D0 D1 : dense R) : Prop := exists D, den t D /\ deq D (two_site D0 D1) /\
    tl t = [nth 0 (tl h) k0; nth 1 (tl h) k0; nth 1 (tl h') k0; nth 2 (tl h') k0; nth 3 (tl h) k0; nth 3 (tl h') k0].
  Lemma pair_ok h h' D D' x p k p' p2 k2 p2' : den h D -> den h' D' -> tl h = [x; p; k; p'] -> tl h' = [dual k; p2; k2; p2'] ->
    exists t, two_sites_hamil tdot tperm h h' = Ok t /\ pair_of t h h' D D'.
  Proof.
    intros Hh Hh' Eh Eh'. unfold two_sites_hamil. contr Hh Hh' Eh Eh'.
    destruct (den_perm (p := [0; 1; 3; 4; 2; 5]) DC) as (P & EP & TP & DP); [rewrite TC; reflexivity|nodup|rewrite TC; inl|].
    rewrite TC in TP. tred_in TP. exists P. split; [exact EP|]. exists (d_permute [0; 1; 3; 4; 2; 5] (d_tdot D D' [2] [0])). split; [exact DP|].
    pose proof (sizes4 Hh Eh) as S1. pose proof (sizes4 Hh' Eh') as S2. pose proof (den_shape DP) as S3. rewrite TP in S3. cbn [map] in S3.
    split; [|rewrite TP, Eh, Eh'; reflexivity]. split; [rewrite S3; unfold two_site, size; cbn [dsh]; rewrite S1, S2; reflexivity|].
    intros i HI. rewrite S3 in HI. destruct i as [|a [|s [|u [|c [|s' [|u' [|]]]]]]]; try (cbn in HI; rewrite ?andb_false_r in HI; discriminate).
    cbn in HI. rewrite !andb_true_iff, !Nat.ltb_lt in HI. unfold two_site. cbn [dv nth].
    transitivity (sumf R (fun c0 => rmul (dv D [a; s; nth 0 c0 0; s']) (dv D' [nth 0 c0 0; u; c; u'])) (idxs [ksize k])).
    - unfold d_permute, d_tdot. cbn [dv dsh]. rewrite S1, S2. reflexivity.
    - rewrite sum_idxs1. cbn [op_amp]. unfold size. rewrite S1, S2. cbn [nth]. inn. f_equal.
      rewrite <- (sum_delta R (fun c => dv D' [a0; u; c; u']) (proj1 (proj2 (proj2 (proj2 HI))))). reflexivity.
  Qed.
  Lemma two_sites_ok l : forall h Dh Dl x y, den h Dh -> Forall2 den l Dl -> op_chain tl dual (h :: l) x y ->
    exists r, two_sites_loop tdot tperm h l = Ok r /\ length r = length l /\
      forall i t A B D0 D1, nth_error r i = Some t -> nth_error (h :: l) i = Some A -> nth_error l i = Some B -> nth_error (Dh :: Dl) i = Some D0 -> nth_error Dl i = Some D1 -> pair_of t A B D0 D1.
  Proof.
    induction l as [|h' l IH]; intros h Dh Dl x y Hh HD HC.
    - exists []. split; [reflexivity|]. split; [reflexivity|]. intros [|i]; discriminate.
    - inversion HD as [|? Dh' ? Dl' Hh' HD']; subst. cbn [op_chain] in HC. destruct HC as (p & k & p' & Eh & p2 & k2 & p2' & Eh' & HC).
      destruct (pair_ok Hh Hh' Eh Eh') as (t & Et & Pt). destruct (IH h' Dh' Dl' k y Hh' HD') as (r & Er & Lr & Pr); [cbn [op_chain]; eauto 6|].
      exists (t :: r). cbn [two_sites_loop]. rewrite Et. cbn [rbind]. rewrite Er. split; [reflexivity|]. split; [cbn; lia|].
      intros [|i] t' A B D0 D1 H1 H2 H3 H4 H5; cbn [nth_error] in *; [injection H1 as <-; injection H2 as <-; injection H3 as <-; injection H4 as <-; injection H5 as <-; exact Pt|]. eapply Pr; eauto.
  Qed.
End G.
