From Verif Require Import Base Quantity QuantityProofs FlatMap Ring Index SpecIndex IndexProofs LegsProofs Dense BTensor BTensorProofs Rand SpecRand.
From Coq Require Import Lia.
Set Implicit Arguments.

Lemma lens_len A (L : list (list A)) : length (lens L) = length L.
Proof. apply map_length. Qed.
Section P.
  Variable G : abgroup.
  Implicit Types (cv : list G) (phys : list (list G)).
  Notation "a * b" := (qop G a b).
  Notation e := (qe G).
  Notation dist a b := (qdist2 G a b).
  Lemma start_ok src phys : Forall (fun cv => cv <> []) phys -> exists out sum, rand_start src phys = Ok (out, sum) /\
    in_range (lens phys) out = true /\ sum = qprod G (pick e phys out).
  Proof.
    intros H. unfold rand_start.
    assert (K : forall pre done_ sum0, in_range (lens done_) pre = true -> sum0 = qprod G (pick e done_ pre) ->
      exists out sum, rfold (fun '(out, sum) cv => if length cv =? 0 then UB else let r := src (length out) mod length cv in do a <- rnth cv r ; Ok (out ++ [r], qop G sum a)) phys (pre, sum0) = Ok (out, sum) /\
        in_range (lens (done_ ++ phys)) out = true /\ sum = qprod G (pick e (done_ ++ phys) out)).
    { induction H as [|cv phys Hc H IH]; intros pre done_ sum0 Hp Hs.
      - exists pre, sum0. rewrite app_nil_r. auto.
      - cbn [rfold]. destruct (Nat.eqb_spec (length cv) 0) as [E|E]; [destruct cv; [congruence|discriminate]|]. cbv zeta.
        set (r := src (length pre) mod length cv). assert (Hr : r < length cv) by (apply Nat.mod_upper_bound; auto).
        rewrite (rnth_Ok e) by auto. cbn [rbind].
        destruct (IH (pre ++ [r]) (done_ ++ [cv]) (qop G sum0 (nth r cv e))) as (out & sum & E1 & E2 & E3).
        + pose proof (in_range_length _ _ Hp) as L. unfold lens in *. rewrite map_app, in_range_app by auto. rewrite Hp. cbn. rewrite andb_true_r. apply Nat.ltb_lt; auto.
        + pose proof (in_range_length _ _ Hp) as L. unfold lens in L. rewrite map_length in L. rewrite pick_app by auto. rewrite qprod_app. cbn. rewrite qop_e_r, Hs. auto.
        + exists out, sum. rewrite <- app_assoc in E2, E3. auto. }
    destruct (K [] [] e eq_refl eq_refl) as (out & sum & E1 & E2 & E3). exists out, sum. auto.
  Qed.
  Lemma pick_spec c sum cv o d : o < length cv -> d = dist (sum * nth o cv e) c ->
    let r := rand_pick c sum cv o d in fst r < length cv /\ snd r = dist (sum * nth (fst r) cv e) c /\
      forall j, j < length cv -> (snd r <= dist (qop G sum (nth j cv e)) c)%Z.
  Proof.
    intros Ho Hd. unfold rand_pick. cbv zeta.
    assert (K : forall l o d, (forall j v, In (j, v) l -> j < length cv /\ v = nth j cv e) -> o < length cv -> d = dist (sum * nth o cv e) c ->
      let r := fold_left (fun '(o, d) '(j, v) => if (dist (qop G sum v) c <? d)%Z then (j, dist (sum * v) c) else (o, d)) l (o, d) in
      fst r < length cv /\ snd r = dist (sum * nth (fst r) cv e) c /\ (snd r <= d)%Z /\ forall j v, In (j, v) l -> (snd r <= dist (qop G sum v) c)%Z).
    { induction l as [|[j v] l IH]; intros o' d' Hl Ho' Hd'; cbv zeta; cbn [fold_left].
      - cbn [fst snd]. repeat split; auto; [lia|intros ? ? []].
      - destruct (Hl j v (or_introl eq_refl)) as [Hj Hv]. destruct (Z.ltb_spec (dist (sum * v) c) d') as [C|C].
        + destruct (IH j (dist (sum * v) c)) as (I1 & I2 & I3 & I4); auto; [intros; apply Hl; right; auto|subst v; auto|].
          repeat split; auto; [lia|]. intros j' v' [Hi|Hi]; [injection Hi as -> ->; auto|eauto].
        + destruct (IH o' d') as (I1 & I2 & I3 & I4); auto; [intros; apply Hl; right; auto|].
          repeat split; auto. intros j' v' [Hi|Hi]; [injection Hi as -> ->; lia|eauto]. }
    destruct (K (combine (seq 0 (length cv)) cv) o d) as (I1 & I2 & I3 & I4); auto.
    { intros j v Hi. apply In_nth with (d := (0, e)) in Hi as (k & Hk & E). rewrite combine_length, seq_length in Hk.
      rewrite combine_nth, seq_nth in E by (rewrite ?seq_length; lia). injection E as <- <-. cbn. split; auto. lia. }
    cbv zeta in *. split; auto. split; auto. intros j Hj. apply I4 with (j := j). 
    replace (j, nth j cv e) with (nth j (combine (seq 0 (length cv)) cv) (0, e)) by (rewrite combine_nth, seq_nth by (rewrite ?seq_length; auto); auto).
    apply nth_In. rewrite combine_length, seq_length. lia.
  Qed.
  Lemma pass_ok c phys : forall out sum d pre, in_range (lens phys) out = true -> sum = pre * qprod G (pick e phys out) -> d = dist sum c ->
    exists out' sum' d', rand_pass c phys out sum d = Ok (out', sum', d') /\ in_range (lens phys) out' = true /\
      sum' = pre * qprod G (pick e phys out') /\ d' = dist sum' c.
  Proof.
    induction phys as [|cv phys IH]; intros [|o out] sum d pre Hr Hs Hd; try discriminate; [cbn; eauto 10|].
    cbn [lens map] in Hr. apply in_range_cons in Hr as [Ho Hr]. cbn [rand_pass]. destruct (Z.eqb_spec d 0) as [E0|E0].
    { exists (o :: out), sum, d. repeat split; auto. apply in_range_cons; auto. }
    rewrite (rnth_Ok e) by auto. cbn [rbind]. set (sum1 := sum * qinv G (nth o cv e)).
    assert (Es : sum1 * nth o cv e = sum) by (unfold sum1; rewrite <- qop_assoc, qop_inv_l; apply qop_e_r).
    destruct (@pick_spec c sum1 cv o d Ho ltac:(rewrite Es; auto)) as (P1 & P2 & P3). destruct (rand_pick c sum1 cv o d) as [o1 d1]. cbn [fst snd] in *.
    rewrite (rnth_Ok e) by auto. cbn [rbind].
    assert (E1 : sum1 = pre * qprod G (pick e phys out)).
    { unfold sum1. rewrite Hs. cbn [pick]. change (qprod G (nth o cv e :: pick e phys out)) with (nth o cv e * qprod G (pick e phys out)).
      rewrite (qop_comm G (nth o cv e)), !qop_assoc. rewrite <- (qop_assoc G _ (nth o cv e)), (qop_comm G (nth o cv e)), qop_inv_l, qop_e_r. auto. }
    destruct (IH out (sum1 * nth o1 cv e) d1 (pre * nth o1 cv e)) as (out2 & sum2 & d2 & F1 & F2 & F3 & F4); auto.
    { rewrite E1, <- !qop_assoc. f_equal. apply qop_comm. }
    rewrite F1. cbn [rbind]. exists (o1 :: out2), sum2, d2. repeat split; auto; [apply in_range_cons; auto|].
    rewrite F3. cbn [pick]. change (qprod G (nth o1 cv e :: pick e phys out2)) with (nth o1 cv e * qprod G (pick e phys out2)). rewrite qop_assoc. auto.
  Qed.
  Lemma dist_0 a b : dist a b = 0%Z <-> a = b.
  Proof. apply qdist2_spec. Qed.
  Lemma passes_ok c phys n : forall out sum, in_range (lens phys) out = true -> sum = qprod G (pick e phys out) ->
    rand_passes n c phys out sum (dist sum c) = Throw InvalidArgument \/
    exists out', rand_passes n c phys out sum (dist sum c) = Ok out' /\ in_range (lens phys) out' = true /\ qprod G (pick e phys out') = c.
  Proof.
    induction n as [|n IH]; intros out sum Hr Hs; [left; reflexivity|]. cbn [rand_passes].
    destruct (@pass_ok c phys out sum (dist sum c) e Hr ltac:(rewrite qop_e_l; auto) eq_refl) as (out' & sum' & d' & E1 & E2 & E3 & E4).
    rewrite E1. cbn [rbind]. rewrite qop_e_l in E3. destruct (Z.eqb_spec d' 0) as [E|E].
    - right. exists out'. repeat split; auto. rewrite <- E3. apply dist_0. congruence.
    - rewrite E4. apply IH; auto.
  Qed.
  Lemma config_range phys c o : in_range (lens phys) o = true -> qprod G (pick e phys o) = c -> config phys c o.
  Proof.
    intros H1 H2. apply in_range_nth in H1 as [L H1]. rewrite lens_len in *. split; auto. split; auto. intros i Hi.
    specialize (H1 i Hi). unfold lens in H1. rewrite (nth_indep (map _ _) 0 (length (@nil G))) in H1 by (rewrite map_length; auto). rewrite map_nth in H1. auto.
  Qed.
  Theorem string_sound src phys c n : Forall (fun cv => cv <> []) phys ->
    generate_random_string src phys c n = Throw InvalidArgument \/ exists out, generate_random_string src phys c n = Ok out /\ config phys c out.
  Proof.
    intros H. unfold generate_random_string. destruct (n =? 0); auto. destruct (start_ok src H) as (out & sum & E & Hr & Hs). rewrite E. cbn [rbind].
    destruct (passes_ok c phys n out Hr Hs) as [->|(out' & -> & H1 & H2)]; auto. right. exists out'. split; auto. apply config_range; auto.
  Qed.
  Theorem string_empty_site src phys c n : n <> 0 -> In [] phys -> generate_random_string src phys c n = UB.
  Proof.
    intros Hn Hi. unfold generate_random_string. destruct (Nat.eqb_spec n 0); [contradiction|].
    replace (rand_start src phys) with (@UB (list nat * G)); auto. symmetry. clear - Hi. unfold rand_start. generalize (@nil nat, e) as s. induction phys as [|cv phys IH]; intros [pre sum]; [destruct Hi|]. cbn [rfold].
    destruct (Nat.eqb_spec (length cv) 0) as [E|E]; [reflexivity|]. destruct Hi as [->|Hi]; [contradiction|]. cbv zeta.
    rewrite (rnth_Ok e) by (apply Nat.mod_upper_bound; auto). cbn [rbind]. apply IH; auto.
  Qed.
End P.

(** * Completeness for integers with a common step *)
Local Open Scope Z_scope.
Definition zval (v : z_group) : Z := proj1_sig v.
Fixpoint zsum (phys : list (list z_group)) (o : list nat) : Z :=
  match phys, o with cv :: phys', i :: o' => zval (nth i cv (qe z_group)) + zsum phys' o' | _, _ => 0 end.
Lemma zval_op (a b : z_group) : -32768 <= zval a + zval b <= 32767 -> zval (qop z_group a b) = zval a + zval b.
Proof. intros H. unfold zval in *. cbn [qop z_group proj1_sig]. unfold z_op, z_op_cond. cbn [b2z]. rewrite Z.mul_1_l. apply i16_id. exact H. Qed.
Lemma argmin k m x r : 0 <= k <= m -> - k <= x <= m - k -> (forall y, - k <= y <= m - k -> (x - r) * (x - r) <= (y - r) * (y - r)) ->
  (0 <= r -> x <= r /\ (x = r \/ x = m - k)) /\ (r <= 0 -> r <= x /\ (x = r \/ x = - k)).
Proof.
  intros Hk Hx H. split; intros Hr.
  - destruct (Z.le_gt_cases (m - k) r) as [C|C].
    + specialize (H (m - k) ltac:(lia)). assert (x = m - k) by nia. lia.
    + specialize (H r ltac:(lia)). assert (x = r) by nia. lia.
  - destruct (Z.le_gt_cases r (- k)) as [C|C].
    + specialize (H (- k) ltac:(lia)). assert (x = - k) by nia. lia.
    + specialize (H r ltac:(lia)). assert (x = r) by nia. lia.
Qed.
Definition highs (d : Z) (S : list (Z * nat)) : Z := lows S + d * counts S.
Lemma steps_bound d s cv v : 0 < d -> steps d s cv -> In v cv -> fst s <= zval v <= fst s + d * Z.of_nat (snd s) /\
  Z.abs (zval v) <= Z.max (Z.abs (fst s)) (Z.abs (fst s + d * Z.of_nat (snd s))).
Proof.
  intros Hd [H1 _] Hv. destruct (H1 _ Hv) as (k & Hk & E). unfold zval. rewrite E. assert (0 <= d * Z.of_nat k <= d * Z.of_nat (snd s)) by nia. lia.
Qed.
Lemma zsum_bound d S phys : 0 < d -> Forall2 (steps d) S phys -> forall o, in_range (lens phys) o = true ->
  lows S <= zsum phys o <= highs d S /\ Z.abs (zsum phys o) <= reach d S.
Proof.
  intros Hd. unfold highs. induction 1 as [|s cv S phys H F IH]; intros [|i o] Ho; try discriminate; [cbn; lia|].
  cbn [lens map] in Ho. apply in_range_cons in Ho as [Hi Ho]. destruct (IH _ Ho) as [I1 I2].
  destruct (@steps_bound d s cv _ Hd H (nth_In cv (qe z_group) Hi)) as [B1 B2]. cbn [zsum lows counts reach fold_right].
  change (fold_right (fun s a => fst s + a) 0 S) with (lows S). change (fold_right (fun s a => Z.of_nat (snd s) + a) 0 S) with (counts S).
  change (fold_right _ 0 S) with (reach d S). split; lia.
Qed.
Lemma zsum_steps d S phys : Forall2 (steps d) S phys -> forall o, in_range (lens phys) o = true -> exists k, zsum phys o = lows S + d * k.
Proof.
  induction 1 as [|s cv S phys H F IH]; intros [|i o] Ho; try discriminate; [exists 0; cbn; lia|].
  cbn [lens map] in Ho. apply in_range_cons in Ho as [Hi Ho]. destruct (IH _ Ho) as [k Hk].
  destruct H as [H _]. destruct (H _ (nth_In cv (qe z_group) Hi)) as (j & Hj & E). exists (Z.of_nat j + k).
  cbn [zsum lows fold_right]. change (fold_right (fun s a => fst s + a) 0 S) with (lows S). unfold zval. rewrite E, Hk. lia.
Qed.
Lemma reach_nonneg d S : 0 <= reach d S.
Proof. induction S; cbn [reach fold_right]; [lia|]. change (fold_right _ 0 S) with (reach d S). lia. Qed.
Lemma zval_inv (a : z_group) : Z.abs (zval a) <= 32767 -> zval (qinv z_group a) = - zval a.
Proof. intros H. unfold zval in *. cbn [qinv z_group proj1_sig]. unfold z_inv. apply i16_id. lia. Qed.
Lemma sq_le d a b : 0 < d -> (d * a) * (d * a) <= (d * b) * (d * b) -> a * a <= b * b.
Proof. intros Hd H. assert (0 < d * d) by nia. apply (Z.mul_le_mono_pos_l _ _ (d * d)); auto. nia. Qed.
Lemma pass_complete d c : 0 < d -> forall S phys, Forall2 (steps d) S phys -> forall out (sum : z_group) dist pre,
  in_range (lens phys) out = true -> zval sum = pre + zsum phys out -> Z.abs pre + reach d S <= 32767 ->
  dist = dist2 (zval sum) (zval c) -> (exists k, zval c = pre + lows S + d * k) ->
  pre + lows S <= zval c <= pre + highs d S -> exists out' sum', rand_pass c phys out sum dist = Ok (out', sum', 0).
Proof.
  intros Hd. induction 1 as [|s cv S phys H F IH]; intros [|o out] sum dist pre Ho Hs Hb Hdist Hk Hc; try discriminate.
  { cbn in *. exists [], sum. do 2 f_equal. unfold highs in Hc. cbn in Hc. rewrite Hdist, Hs. unfold dist2. replace (zval c) with pre by lia. lia. }
  cbn [lens map] in Ho. apply in_range_cons in Ho as [Hi Ho]. cbn [rand_pass]. destruct (Z.eqb_spec dist 0) as [E0|E0]; [rewrite E0; eauto|].
  rewrite (rnth_Ok (qe z_group)) by auto. cbn [rbind].
  unfold highs in Hc. cbn [zsum lows counts reach fold_right] in *.
  change (fold_right (fun s a => fst s + a) 0 S) with (lows S) in *. change (fold_right (fun s a => Z.of_nat (snd s) + a) 0 S) with (counts S) in *.
  change (fold_right _ 0 S) with (reach d S) in *.
  pose proof (reach_nonneg d S) as Hrn. destruct (zsum_bound Hd F _ Ho) as [Z1 Z2]. unfold highs in Z1.
  assert (HB : forall v, In v cv -> fst s <= zval v <= fst s + d * Z.of_nat (snd s) /\ Z.abs (zval v) <= Z.max (Z.abs (fst s)) (Z.abs (fst s + d * Z.of_nat (snd s)))) by (intros; eapply steps_bound; eauto).
  set (M := Z.max (Z.abs (fst s)) (Z.abs (fst s + d * Z.of_nat (snd s)))) in *.
  set (a := nth o cv (qe z_group)) in *. assert (Ia : In a cv) by (apply nth_In; auto). destruct (HB _ Ia) as [A1 A2].
  set (sum1 := qop z_group sum (qinv z_group a)). assert (V1 : zval sum1 = pre + zsum phys out).
  { unfold sum1. rewrite zval_op; rewrite zval_inv by lia; lia. }
  assert (VC : forall v, In v cv -> zval (qop z_group sum1 v) = pre + zsum phys out + zval v).
  { intros v Hv. destruct (HB _ Hv). rewrite zval_op; rewrite V1; lia. }
  assert (Es : qop z_group sum1 a = sum) by (unfold sum1; rewrite <- qop_assoc, qop_inv_l; apply qop_e_r).
  destruct (@pick_spec z_group c sum1 cv o dist Hi) as (P1 & P2 & P3).
  { rewrite Hdist. change (qdist2 z_group ?x ?y) with (dist2 (zval x) (zval y)). fold a. rewrite Es. auto. }
  destruct (rand_pick c sum1 cv o dist) as [o1 dist1]. cbn [fst snd] in *. rewrite (rnth_Ok (qe z_group)) by auto. cbn [rbind].
  set (a1 := nth o1 cv (qe z_group)) in *. assert (Ia1 : In a1 cv) by (apply nth_In; auto). destruct (HB _ Ia1) as [B1 B2].
  destruct H as [S1 S2]. destruct (S1 _ Ia) as (k & Kk & Ek). destruct (S1 _ Ia1) as (k1 & Kk1 & Ek1). fold (zval a) in Ek. fold (zval a1) in Ek1.
  destruct (zsum_steps F _ Ho) as [kr Ekr]. destruct Hk as [kc Ekc]. set (r := kc - kr - Z.of_nat k).
  assert (Er : zval c = pre + zsum phys out + zval a + d * r) by (unfold r; lia).
  destruct (@argmin (Z.of_nat k) (Z.of_nat (snd s)) (Z.of_nat k1 - Z.of_nat k) r) as [Q1 Q2]; [lia|lia| |].
  { intros y Hy. destruct (S2 (Z.to_nat (y + Z.of_nat k)) ltac:(lia)) as (v & Iv & Ev). fold (zval v) in Ev.
    destruct (In_nth _ _ (qe z_group) Iv) as (j & Hj & Ej). specialize (P3 j Hj). rewrite Ej, P2 in P3.
    change (dist2 (zval (qop z_group sum1 a1)) (zval c) <= dist2 (zval (qop z_group sum1 v)) (zval c)) in P3. rewrite !VC in P3 by auto.
    unfold dist2 in P3. rewrite Z2Nat.id in Ev by lia. apply sq_le with (1 := Hd).
    replace (d * (Z.of_nat k1 - Z.of_nat k - r)) with (pre + zsum phys out + zval a1 - zval c) by lia.
    replace (d * (y - r)) with (pre + zsum phys out + zval v - zval c) by lia. exact P3. }
  destruct (IH out (qop z_group sum1 a1) dist1 (pre + zval a1)) as (out' & sum' & E'); auto.
  - rewrite VC by auto. lia.
  - lia.
  - exists (kc - Z.of_nat k1). lia.
  - unfold highs. destruct (Z.le_gt_cases 0 r) as [C|C].
    + destruct (Q1 C) as [Q3 Q4]. assert (D1 : d * (Z.of_nat k1 - Z.of_nat k) <= d * r) by (apply Z.mul_le_mono_nonneg_l; lia). split; [lia|]. destruct Q4 as [Q4|Q4].
      * assert (d * (Z.of_nat k1 - Z.of_nat k) = d * r) by (rewrite Q4; auto). lia.
      * assert (k1 = snd s) by lia. subst k1. lia.
    + destruct (Q2 ltac:(lia)) as [Q3 Q4]. assert (D1 : d * r <= d * (Z.of_nat k1 - Z.of_nat k)) by (apply Z.mul_le_mono_nonneg_l; lia). split; [|lia]. destruct Q4 as [Q4|Q4].
      * assert (d * (Z.of_nat k1 - Z.of_nat k) = d * r) by (rewrite Q4; auto). lia.
      * assert (k1 = 0%nat) by lia. subst k1. lia.
  - rewrite E'. cbn [rbind]. eauto.
Qed.
Lemma zsum_qprod d S phys : 0 < d -> Forall2 (steps d) S phys -> reach d S <= 32767 -> forall o, in_range (lens phys) o = true ->
  zval (qprod z_group (pick (qe z_group) phys o)) = zsum phys o.
Proof.
  intros Hd. induction 1 as [|s cv S phys H F IH]; intros Hb [|i o] Ho; try discriminate; [reflexivity|].
  cbn [lens map] in Ho. apply in_range_cons in Ho as [Hi Ho]. cbn [reach fold_right] in Hb. change (fold_right _ 0 S) with (reach d S) in Hb.
  destruct (@steps_bound d s cv _ Hd H (nth_In cv (qe z_group) Hi)) as [B1 B2]. destruct (zsum_bound Hd F _ Ho) as [Z1 Z2]. cbn [pick zsum].
  change (qprod z_group (?x :: ?l)) with (qop z_group x (qprod z_group l)). rewrite zval_op; rewrite IH by (auto; lia); lia.
Qed.
Theorem string_complete src d S phys (c : z_group) n : 0 < d -> Forall2 (steps d) S phys -> reach d S <= 32767 ->
  (exists k, 0 <= k <= counts S /\ zval c = lows S + d * k) -> (n <> 0)%nat ->
  exists out, generate_random_string src phys c n = Ok out /\ config phys c out.
Proof.
  intros Hd HF Hb (k & Hk & Ec) Hn.
  assert (HN : Forall (fun cv => cv <> []) phys).
  { clear - HF. induction HF as [|s cv S phys [_ H] F IH]; constructor; auto. destruct (H 0%nat ltac:(lia)) as (v & Hv & _). intros ->. destruct Hv. }
  destruct (@string_sound z_group src phys c n HN) as [E|E]; auto. exfalso. unfold generate_random_string in E.
  destruct (Nat.eqb_spec n 0); [contradiction|]. destruct (@start_ok z_group src phys HN) as (out & sum & E1 & Hr & Hs). rewrite E1 in E. cbn [rbind] in E.
  destruct n as [|n]; [contradiction|]. cbn [rand_passes] in E.
  destruct (@pass_complete d c Hd S phys HF out sum (qdist2 z_group sum c) 0 Hr) as (out' & sum' & E2); auto.
  - rewrite Hs, (zsum_qprod Hd HF Hb); auto.
  - exists k. lia.
  - unfold highs. pose proof (Z.mul_le_mono_nonneg_l k (counts S) d ltac:(lia) ltac:(lia)). pose proof (Z.mul_nonneg_nonneg d k ltac:(lia) ltac:(lia)). lia.
  - rewrite E2 in E. cbn [rbind] in E. rewrite Z.eqb_refl in E. discriminate.
Qed.
(** Nothing is reached at all outside the interval or off the steps. *)
Lemma config_steps d S phys (c : z_group) o : 0 < d -> Forall2 (steps d) S phys -> reach d S <= 32767 -> config phys c o ->
  exists k, 0 <= k <= counts S /\ zval c = lows S + d * k.
Proof.
  intros Hd HF Hb (L & H & E).
  assert (Hr : in_range (lens phys) o = true).
  { apply in_range_nth. rewrite lens_len. split; auto. intros i Hi. unfold lens. rewrite (nth_indep (map _ _) 0%nat (length (@nil z_group))) by (rewrite map_length; auto). rewrite map_nth. auto. }
  destruct (zsum_bound Hd HF _ Hr) as [Z1 _]. destruct (zsum_steps HF _ Hr) as [k Hk]. rewrite <- (zsum_qprod Hd HF Hb _ Hr), E in *. exists k. split; auto. unfold highs in Z1. clear - Hd Z1 Hk. nia.
Qed.

Theorem string_iff : forall (src : nat -> nat) d S (phys : list (list z_group)) (total : z_group) (n_pass : nat),
  (0 < d)%Z -> Forall2 (steps d) S phys -> (reach d S <= 32767)%Z -> n_pass <> 0%nat ->
  (exists o, config phys total o) <-> (exists out, generate_random_string src phys total n_pass = Ok out).
Proof.
  intros src d S phys total n Hd HF Hb Hn. split.
  - intros [o Ho]. destruct (@string_complete src d S phys total n Hd HF Hb (config_steps Hd HF Hb Ho) Hn) as (out & E & _). eauto.
  - intros [out E]. destruct (@string_sound z_group src phys total n) as [E'|(out' & E' & H)]; [|congruence|eauto].
    clear - HF. induction HF as [|s cv S phys [_ H] F IH]; constructor; auto. destruct (H 0%nat ltac:(lia)) as (v & Hv & _). intros ->. destruct Hv.
Qed.
