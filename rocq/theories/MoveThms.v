(** Displacements of the orthogonality centre, for any tensor operations that represent the dense ones. *)
From Verif Require Import Base Quantity QuantityProofs Ring SpecIndex Dense IndexProofs LegsProofs BTensor SpecBTensor SpecTensordot Chain SpecChain ChainProofs SpecSvd Dmrg MoveOc SpecMove MoveProofs.
Set Implicit Arguments.

Lemma zget_nat A (l : list A) n : zget l (Z.of_nat n) = rnth l n.
Proof. unfold zget. replace (Z.of_nat n <? 0)%Z with false by (symmetry; apply Z.ltb_ge; lia). rewrite Nat2Z.id. reflexivity. Qed.
Lemma rnth_app A (l : list A) x l' : rnth (l ++ x :: l') (length l) = Ok x.
Proof. unfold rnth. rewrite nth_error_app2, Nat.sub_diag by lia. reflexivity. Qed.
Lemma zset_app A (l : list A) x l' y : zset (l ++ x :: l') (Z.of_nat (length l)) y = Ok (l ++ y :: l').
Proof.
  unfold zset. rewrite app_length. cbn [length]. replace (_ && _)%bool with true by (symmetry; apply andb_true_iff; rewrite Z.leb_le, Z.ltb_lt; lia). rewrite Nat2Z.id. f_equal.
  induction l as [|a l IH]; [reflexivity|]. cbn. f_equal. exact IH.
Qed.
Lemma cut_at A (l : list A) n : S n < length l -> exists p a b q, l = p ++ a :: b :: q /\ length p = n.
Proof.
  intros H. destruct (nth_error l n) as [a|] eqn:E; [|apply nth_error_None in E; lia]. apply nth_error_split in E as (p & q & -> & Lp). destruct q as [|b q]; [rewrite app_length in H; cbn in H; lia|]. eauto 6.
Qed.
Lemma F2_app A B (P : A -> B -> Prop) l1 l2 m : Forall2 P (l1 ++ l2) m -> exists m1 m2, m = m1 ++ m2 /\ length m1 = length l1 /\ Forall2 P l1 m1 /\ Forall2 P l2 m2.
Proof.
  intros H. apply Forall2_app_inv_l in H as (m1 & m2 & H1 & H2 & ->). exists m1, m2. split; [reflexivity|]. split; [|auto]. clear H2. induction H1; cbn; congruence.
Qed.
Lemma nth_two A (p : list A) a b a' b' q j : j < length p \/ S (length p) < j -> nth_error (p ++ a' :: b' :: q) j = nth_error (p ++ a :: b :: q) j.
Proof.
  intros [H|H]; [rewrite !nth_error_app1 by auto; reflexivity|]. rewrite !nth_error_app2 by lia. replace (j - length p) with (S (S (j - length p - 2))) by lia. reflexivity.
Qed.

Section G.
  Variable R : ring.
  Variable Q : abgroup.
  Variables (T K : Type) (tl : T -> list K) (dual : K -> K) (ksize : K -> nat) (den : T -> dense R -> Prop) (rl : T -> Q) (iso : nat -> T -> Prop).
  Hypothesis dual_size : forall k, ksize (dual k) = ksize k.
  Hypothesis den_shape : forall t D, den t D -> dsh D = map ksize (tl t).
  Variable strict : Prop.
  Variables pull push : T -> T -> result (T * T).
  Hypothesis HL : @pulls R Q T K tl dual ksize den rl iso strict pull.
  Hypothesis HR : @pushes R Q T K tl dual ksize den rl iso strict push.
  Notation fit := (mps_fit tl dual).
  Notation dfit := (mps_fit (@dsh R) (fun k : nat => k)).

  Lemma tfit_app l : forall l' x y, fit (l ++ l') x y <-> exists k, fit l x k /\ fit l' k y.
  Proof.
    induction l as [|A l IH]; intros l' x y; cbn.
    - split; [eauto|intros (k & -> & H); exact H].
    - split.
      + intros (s & k & E & H). apply IH in H as (k' & H1 & H2). exists k'. eauto 6.
      + intros (k' & (s & k & E & H1) & H2). exists s, k. split; [exact E|]. apply IH. eauto.
  Qed.
  Lemma den_fit l D : Forall2 den l D -> forall x y, fit l x y -> dfit D (ksize x) (ksize y).
  Proof.
    induction 1 as [|A d l D HA _ IH]; intros x y; cbn; [congruence|]. intros (s & k & E & H). exists (ksize s), (ksize k). split; [rewrite (den_shape HA), E; cbn; rewrite dual_size; reflexivity|]. apply IH, H.
  Qed.
  Lemma rules_two p a b a' b' q : qop Q (rl a') (rl b') = qop Q (rl a) (rl b) -> qprod Q (map rl (p ++ a' :: b' :: q)) = qprod Q (map rl (p ++ a :: b :: q)).
  Proof.
    intros E. rewrite !map_app, !qprod_app. f_equal. cbn [map]. change (qop Q (rl a') (qop Q (rl b') (qprod Q (map rl q))) = qop Q (rl a) (qop Q (rl b) (qprod Q (map rl q)))). rewrite !qop_assoc, E. reflexivity.
  Qed.
  (** What is known of a chain, and what is kept. *)
  Definition good (sites : list T) (Ds : list (dense R)) (x y : K) : Prop := Forall2 den sites Ds /\ fit sites x y.
  Definition kept (sites sites' : list T) (Ds Ds' : list (dense R)) (x y : K) : Prop :=
    good sites' Ds' x y /\ same_state Ds Ds' (ksize x) (ksize y) /\ qprod Q (map rl sites') = qprod Q (map rl sites).
  Lemma same_trans (D D' D'' : list (dense R)) x y : same_state D D' x y -> same_state D' D'' x y -> same_state D D'' x y.
  Proof. intros (S1 & A1) (S2 & A2). split; [congruence|]. intros c a b Hc Ha Hb. rewrite A2, A1; auto. rewrite S1. exact Hc. Qed.
  Lemma kept_trans s s' s'' D D' D'' x y : kept s s' D D' x y -> kept s' s'' D' D'' x y -> kept s s'' D D'' x y.
  Proof. intros (_ & A1 & R1) (G2 & A2 & R2). split; [exact G2|]. split; [eapply same_trans; eauto|congruence]. Qed.
  Lemma same_zero (D D' : list (dense R)) x y : same_state D D' x y -> zero_state D' x y -> zero_state D x y.
  Proof. intros (S & A) Z c a b Hc Ha Hb. rewrite <- A by auto. apply Z; auto. rewrite S. exact Hc. Qed.

  Lemma swap_two p a b q Dp Da Db Dq x y a' b' Da' Db' xs s k pp z k' : good (p ++ a :: b :: q) (Dp ++ Da :: Db :: Dq) x y -> Forall2 den p Dp -> Forall2 den q Dq ->
    tl a = [dual xs; s; k] -> tl b = [dual k; pp; z] -> den a Da -> den b Db -> den a' Da' -> den b' Db' -> tl a' = [dual xs; s; k'] -> tl b' = [dual k'; pp; z] ->
    (forall a0 i j b0, a0 < ksize xs -> i < ksize s -> j < ksize pp -> b0 < ksize z ->
       (sum c < ksize k', rmul (dv Da' [a0; i; c]) (dv Db' [c; j; b0])) = sum c < ksize k, rmul (dv Da [a0; i; c]) (dv Db [c; j; b0])) ->
    qop Q (rl a') (rl b') = qop Q (rl a) (rl b) -> kept (p ++ a :: b :: q) (p ++ a' :: b' :: q) (Dp ++ Da :: Db :: Dq) (Dp ++ Da' :: Db' :: Dq) x y.
  Proof.
    intros (F & HF) FP FQ Ea Eb Ha Hb Ha' Hb' Ea' Eb' HV HRl. split; [split|split].
    - apply Forall2_app; [exact FP|]. repeat constructor; assumption.
    - apply tfit_app in HF as (x' & H1 & H2). apply tfit_app. cbn in H2. destruct H2 as (s2 & k2 & E2 & (s3 & k3 & E3 & H3)). rewrite Ea in E2. injection E2 as E21 <- <-. rewrite Eb in E3. injection E3 as <- <-.
      exists x'. split; [exact H1|]. cbn. exists s, k'. split; [rewrite Ea', E21; reflexivity|]. exists pp, z. auto.
    - apply amp_replace with (xs := ksize xs) (s := ksize s) (k := ksize k) (p := ksize pp) (z := ksize z) (k' := ksize k').
      + exact (den_fit F _ _ HF).
      + rewrite (den_shape Ha), Ea. cbn. rewrite dual_size. reflexivity.
      + rewrite (den_shape Hb), Eb. cbn. rewrite dual_size. reflexivity.
      + rewrite (den_shape Ha'), Ea'. cbn. rewrite dual_size. reflexivity.
      + rewrite (den_shape Hb'), Eb'. cbn. rewrite dual_size. reflexivity.
      + exact HV.
    - apply rules_two. exact HRl.
  Qed.
  Lemma nonzero_in sites Ds x y p D q : good sites Ds x y -> (strict -> ~ zero_state Ds (ksize x) (ksize y)) -> Ds = p ++ D :: q -> strict -> ~ zero_site D.
  Proof. intros (F & HF) NZ -> HS HZ. apply (NZ HS). apply amp_zero; [exact (den_fit F _ _ HF)|exact HZ]. Qed.

  (** One turn of either loop, between sites [length p] and the next one. *)
  Lemma step_ok (left : bool) sites Ds x y i : good sites Ds x y -> (strict -> ~ zero_state Ds (ksize x) (ksize y)) -> S i < length sites ->
    exists p a b q a' b' Dp Da Db Dq Da' Db', sites = p ++ a :: b :: q /\ length p = i /\ Ds = Dp ++ Da :: Db :: Dq /\ length Dp = i /\
      (if left then pull else push) a b = Ok (a', b') /\ kept sites (p ++ a' :: b' :: q) Ds (Dp ++ Da' :: Db' :: Dq) x y /\
      (if left then iso 1 b -> right_isometry Db' else iso 2 a -> left_isometry Da').
  Proof.
    intros HG NZ Hi. destruct (cut_at sites Hi) as (p & a & b & q & -> & Lp). pose proof HG as (F & HF).
    destruct (F2_app _ _ F) as (Dp & m & ED & LD & FP & F2). inversion F2 as [|? Da ? m2 Ha F3]; subst. inversion F3 as [|? Db ? Dq Hb F4]; subst.
    apply tfit_app in HF as (x' & H1 & H2). cbn in H2. destruct H2 as (s & k & Ea & (p2 & z & Eb & H3)).
    destruct left.
    - destruct (@HL a b Da Db x' s k p2 z Ha Hb Ea Eb) as (a' & b' & Da' & Db' & k' & E & Ha' & Hb' & Ea' & Eb' & HV & HRl & HI).
      { eapply nonzero_in; [exact HG|exact NZ|]. exact (app_assoc Dp [Da] (Db :: Dq)). }
      exists p, a, b, q, a', b', Dp, Da, Db, Dq, Da', Db'. repeat (split; [auto; fail|]). split; [|exact HI]. eapply swap_two; eauto.
    - destruct (@HR a b Da Db x' s k p2 z Ha Hb Ea Eb) as (a' & b' & Da' & Db' & k' & E & Ha' & Hb' & Ea' & Eb' & HV & HRl & HI).
      { eapply nonzero_in; [exact HG|exact NZ|reflexivity]. }
      exists p, a, b, q, a', b', Dp, Da, Db, Dq, Da', Db'. repeat (split; [auto; fail|]). split; [|exact HI]. eapply swap_two; eauto.
  Qed.
  Lemma centred_left (Dp : list (dense R)) Da Db Dq Da' Db' lo hi : right_isometry Db' -> centred lo hi (S (length Dp)) (Dp ++ Da :: Db :: Dq) ->
    centred (Nat.min lo (length Dp)) hi (length Dp) (Dp ++ Da' :: Db' :: Dq).
  Proof.
    intros HI (C1 & C2). split; intros j A Hj E.
    - apply (C1 j); [lia|]. rewrite <- E. apply nth_two. lia.
    - destruct (Nat.eq_dec j (S (length Dp))) as [->|Hne].
      + rewrite nth_error_app2 in E by lia. replace (S (length Dp) - length Dp) with 1 in E by lia. cbn in E. injection E as <-. exact HI.
      + apply (C2 j); [lia|]. rewrite <- E. apply nth_two. lia.
  Qed.
  Lemma centred_right (Dp : list (dense R)) Da Db Dq Da' Db' lo hi : left_isometry Da' -> centred lo hi (length Dp) (Dp ++ Da :: Db :: Dq) ->
    centred lo (Nat.max hi (S (S (length Dp)))) (S (length Dp)) (Dp ++ Da' :: Db' :: Dq).
  Proof.
    intros HI (C1 & C2). split; intros j A Hj E.
    - destruct (Nat.eq_dec j (length Dp)) as [->|Hne].
      + rewrite nth_error_app2, Nat.sub_diag in E by lia. cbn in E. injection E as <-. exact HI.
      + apply (C1 j); [lia|]. rewrite <- E. apply nth_two. lia.
    - apply (C2 j); [lia|]. rewrite <- E. apply nth_two. lia.
  Qed.
  (** [k] turns. *)
  Lemma left_ok k : forall sites Ds x y oc, good sites Ds x y -> (strict -> ~ zero_state Ds (ksize x) (ksize y)) -> k <= oc -> oc < length sites ->
    exists sites' Ds', moves pull push k true sites (Z.of_nat oc) = Ok (sites', Z.of_nat (oc - k)) /\ kept sites sites' Ds Ds' x y /\ length sites' = length sites /\
      (forall j, j < oc - k \/ oc < j -> nth_error sites' j = nth_error sites j) /\
      ((forall j s A, j < k -> moves pull push j true sites (Z.of_nat oc) = Ok (s, Z.of_nat (oc - j)) -> nth_error s (oc - j) = Some A -> iso 1 A) ->
       forall lo hi, centred lo hi oc Ds -> centred (Nat.min lo (oc - k)) hi (oc - k) Ds').
  Proof.
    induction k as [|k IH]; intros sites Ds x y oc HG NZ Hk Ho.
    - exists sites, Ds. rewrite Nat.sub_0_r. split; [reflexivity|]. split; [split; [exact HG|split; [split; auto|reflexivity]]|]. split; [reflexivity|]. split; [reflexivity|].
      intros _ lo hi (C1 & C2). split; intros j A Hj; [apply C1; lia|apply C2; lia].
    - destruct oc as [|oc]; [lia|]. destruct (step_ok true HG NZ (i := oc) Ho) as (p & a & b & q & a' & b' & Dp & Da & Db & Dq & Da' & Db' & ES & Lp & ED & LD & EP & KP & HI). cbn iota in EP, HI.
      assert (HG' := proj1 KP). assert (NZ' : strict -> ~ zero_state (Dp ++ Da' :: Db' :: Dq) (ksize x) (ksize y)) by (intros HS Z; apply (NZ HS); eapply same_zero; [apply KP|exact Z]).
      assert (LS : length (p ++ a' :: b' :: q) = length sites) by (rewrite ES, !app_length; reflexivity).
      destruct (IH (p ++ a' :: b' :: q) (Dp ++ Da' :: Db' :: Dq) x y oc HG' NZ') as (s' & D' & EM & KM & LM & NM & CM); [lia|lia|].
      assert (STEP : forall j, moves pull push (S j) true sites (Z.of_nat (S oc)) = moves pull push j true (p ++ a' :: b' :: q) (Z.of_nat oc)).
      { intros j. cbn [moves]. replace (Z.of_nat (S oc) - 1)%Z with (Z.of_nat oc) by lia. replace (Z.of_nat oc + 1)%Z with (Z.of_nat (S oc)) by lia.
        rewrite !zget_nat, ES. rewrite <- Lp at 1. rewrite rnth_app. cbn [rbind]. replace (p ++ a :: b :: q) with ((p ++ [a]) ++ b :: q) at 1 by (rewrite <- app_assoc; reflexivity).
        replace (S oc) with (length (p ++ [a])) at 1 by (rewrite app_length; cbn; lia). rewrite rnth_app. cbn [rbind]. rewrite EP. cbn [rbind]. rewrite <- Lp at 1. rewrite zset_app. cbn [rbind].
        replace (p ++ a' :: b :: q) with ((p ++ [a']) ++ b :: q) by (rewrite <- app_assoc; reflexivity). replace (S oc) with (length (p ++ [a'])) by (rewrite app_length; cbn; lia). rewrite zset_app. cbn [rbind]. rewrite <- app_assoc. reflexivity. }
      exists s', D'. rewrite STEP. cbn [Nat.sub]. split; [exact EM|]. split; [eapply kept_trans; eauto|]. split; [lia|]. split.
      + intros j Hj. rewrite NM by lia. rewrite ES. apply nth_two. lia.
      + intros HIs lo hi HC. replace (Nat.min lo (oc - k)) with (Nat.min (Nat.min lo oc) (oc - k)) by lia. apply CM.
        * intros j s A Hj E EA. apply (HIs (S j) s A); [lia|rewrite STEP; exact E|exact EA].
        * rewrite ED in HC. rewrite <- LD in HC |- *. apply centred_left with (Da := Da) (Db := Db); [|exact HC]. apply HI. apply (HIs 0 sites b); [lia|reflexivity|].
          change (S oc - 0) with (S oc). rewrite ES, nth_error_app2 by lia. replace (S oc - length p) with 1 by lia. reflexivity.
  Qed.
  Lemma right_ok k : forall sites Ds x y oc, good sites Ds x y -> (strict -> ~ zero_state Ds (ksize x) (ksize y)) -> oc + k < length sites ->
    exists sites' Ds', moves pull push k false sites (Z.of_nat oc) = Ok (sites', Z.of_nat (oc + k)) /\ kept sites sites' Ds Ds' x y /\ length sites' = length sites /\
      (forall j, j < oc \/ oc + k < j -> nth_error sites' j = nth_error sites j) /\
      ((forall j s A, j < k -> moves pull push j false sites (Z.of_nat oc) = Ok (s, Z.of_nat (oc + j)) -> nth_error s (oc + j) = Some A -> iso 2 A) ->
       forall lo hi, centred lo hi oc Ds -> centred lo (Nat.max hi (S (oc + k))) (oc + k) Ds').
  Proof.
    induction k as [|k IH]; intros sites Ds x y oc HG NZ Hk.
    - exists sites, Ds. rewrite Nat.add_0_r. split; [reflexivity|]. split; [split; [exact HG|split; [split; auto|reflexivity]]|]. split; [reflexivity|]. split; [reflexivity|].
      intros _ lo hi (C1 & C2). split; intros j A Hj; [apply C1; lia|apply C2; lia].
    - destruct (step_ok false HG NZ (i := oc)) as (p & a & b & q & a' & b' & Dp & Da & Db & Dq & Da' & Db' & ES & Lp & ED & LD & EP & KP & HI); [lia|]. cbn iota in EP, HI.
      assert (HG' := proj1 KP). assert (NZ' : strict -> ~ zero_state (Dp ++ Da' :: Db' :: Dq) (ksize x) (ksize y)) by (intros HS Z; apply (NZ HS); eapply same_zero; [apply KP|exact Z]).
      assert (LS : length (p ++ a' :: b' :: q) = length sites) by (rewrite ES, !app_length; reflexivity).
      destruct (IH (p ++ a' :: b' :: q) (Dp ++ Da' :: Db' :: Dq) x y (S oc) HG' NZ') as (s' & D' & EM & KM & LM & NM & CM); [lia|].
      assert (STEP : forall j, moves pull push (S j) false sites (Z.of_nat oc) = moves pull push j false (p ++ a' :: b' :: q) (Z.of_nat (S oc))).
      { intros j. cbn [moves]. replace (Z.of_nat oc + 1)%Z with (Z.of_nat (S oc)) by lia.
        rewrite !zget_nat, ES. rewrite <- Lp at 1. rewrite rnth_app. cbn [rbind]. replace (p ++ a :: b :: q) with ((p ++ [a]) ++ b :: q) at 1 by (rewrite <- app_assoc; reflexivity).
        replace (S oc) with (length (p ++ [a])) at 1 by (rewrite app_length; cbn; lia). rewrite rnth_app. cbn [rbind]. rewrite EP. cbn [rbind]. rewrite <- Lp at 1. rewrite zset_app. cbn [rbind].
        replace (p ++ a' :: b :: q) with ((p ++ [a']) ++ b :: q) by (rewrite <- app_assoc; reflexivity). replace (S oc) with (length (p ++ [a'])) at 1 by (rewrite app_length; cbn; lia). rewrite zset_app. cbn [rbind]. rewrite <- app_assoc. reflexivity. }
      exists s', D'. rewrite STEP. replace (oc + S k) with (S oc + k) by lia. split; [exact EM|]. split; [eapply kept_trans; eauto|]. split; [lia|]. split.
      + intros j Hj. rewrite NM by lia. rewrite ES. apply nth_two. lia.
      + intros HIs lo hi HC. replace (Nat.max hi (S (S oc + k))) with (Nat.max (Nat.max hi (S (S oc))) (S (S oc + k))) by lia. apply CM.
        * intros j s A Hj E EA. apply (HIs (S j) s A); [lia| |].
          -- rewrite STEP. replace (oc + S j) with (S oc + j) by lia. exact E.
          -- replace (oc + S j) with (S oc + j) by lia. exact EA.
        * rewrite ED in HC. rewrite <- LD in HC |- *. apply centred_right with (Da := Da) (Db := Db); [|exact HC]. apply HI. apply (HIs 0 sites a); [lia|cbn; rewrite Nat.add_0_r; reflexivity|].
          rewrite Nat.add_0_r, ES, nth_error_app2 by lia. replace (oc - length p) with 0 by lia. reflexivity.
  Qed.

  Theorem move_ok sites Ds x y oc i : good sites Ds x y -> (strict -> ~ zero_state Ds (ksize x) (ksize y)) -> oc < length sites -> i < length sites ->
    exists sites' Ds', move_to pull push sites (Z.of_nat oc) (Z.of_nat i) = Ok (sites', Z.of_nat i) /\ kept sites sites' Ds Ds' x y /\ length sites' = length sites /\
      (forall j, j < Nat.min i oc \/ Nat.max i oc < j -> nth_error sites' j = nth_error sites j) /\
      ((forall j s A, i < j <= oc \/ oc <= j < i -> move_to pull push sites (Z.of_nat oc) (Z.of_nat j) = Ok (s, Z.of_nat j) -> nth_error s j = Some A -> iso (if i <? oc then 1 else 2) A) ->
       forall lo hi, centred lo hi oc Ds -> centred (Nat.min lo i) (Nat.max hi (S i)) i Ds').
  Proof.
    intros HG NZ Ho Hi. assert (MV : forall j, j < length sites -> move_to pull push sites (Z.of_nat oc) (Z.of_nat j) = if j <? oc then moves pull push (oc - j) true sites (Z.of_nat oc) else moves pull push (j - oc) false sites (Z.of_nat oc)).
    { intros j Hj. unfold move_to. replace (negb _) with false by (symmetry; apply negb_false_iff, andb_true_iff; rewrite Z.leb_le, Z.ltb_lt; lia).
      destruct (j <? oc) eqn:E; [apply Nat.ltb_lt in E|apply Nat.ltb_ge in E].
      - replace (Z.of_nat j <? Z.of_nat oc)%Z with true by (symmetry; apply Z.ltb_lt; lia). f_equal. lia.
      - replace (Z.of_nat j <? Z.of_nat oc)%Z with false by (symmetry; apply Z.ltb_ge; lia). f_equal. lia. }
    rewrite MV by exact Hi. destruct (i <? oc) eqn:E; [apply Nat.ltb_lt in E|apply Nat.ltb_ge in E].
    - destruct (@left_ok (oc - i) sites Ds x y oc HG NZ) as (s' & D' & EM & KM & LM & NM & CM); [lia|exact Ho|]. replace (oc - (oc - i)) with i in * by lia.
      exists s', D'. split; [exact EM|]. split; [exact KM|]. split; [exact LM|]. split; [intros j Hj; apply NM; lia|]. intros HI lo hi HC.
      destruct (CM) with (lo := lo) (hi := hi) as (C1 & C2); [|exact HC|].
      + intros j s A Hj Ej EA. apply (HI (oc - j) s A); [lia| |exact EA]. rewrite MV by lia. destruct (oc - j <? oc) eqn:Ej'.
        * replace (oc - (oc - j)) with j by lia. exact Ej.
        * apply Nat.ltb_ge in Ej'. assert (j = 0) by lia. subst j. rewrite Nat.sub_0_r, Nat.sub_diag. cbn in Ej |- *. rewrite Nat.sub_0_r in Ej. exact Ej.
      + split; intros j A Hj; [apply C1; lia|]. intros EA. destruct (Nat.lt_ge_cases j hi); [apply (C2 j); [lia|exact EA]|lia].
    - destruct (@right_ok (i - oc) sites Ds x y oc HG NZ) as (s' & D' & EM & KM & LM & NM & CM); [lia|]. replace (oc + (i - oc)) with i in * by lia.
      exists s', D'. split; [exact EM|]. split; [exact KM|]. split; [exact LM|]. split; [intros j Hj; apply NM; lia|]. intros HI lo hi HC.
      destruct (CM) with (lo := lo) (hi := hi) as (C1 & C2); [|exact HC|].
      + intros j s A Hj Ej EA. apply (HI (oc + j) s A); [lia| |exact EA]. rewrite MV by lia. replace (oc + j <? oc) with false by (symmetry; apply Nat.ltb_ge; lia). replace (oc + j - oc) with j by lia. exact Ej.
      + split; intros j A Hj; [apply C1; lia|apply C2; lia].
  Qed.
End G.
