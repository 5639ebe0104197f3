(** Whole runs of the DMRG driver. *)
From Verif Require Import Base Index IndexProofs BTensor BTensorProofs Dmrg SpecDmrg DmrgProofs.
Set Implicit Arguments.

Section Mv.
  Variable S : Type.
  Variables lo ro : S -> Prop.
  Notation gauge := (gauge lo ro).
  (** ** Moving the centre *)
  Variable pull_left push_right : S -> S -> S * S.
  Hypothesis pull_ro : forall a b, ro (snd (pull_left a b)).
  Hypothesis push_lo : forall a b, lo (fst (push_right a b)).

  Lemma move_left_spec k sites oc : k <= oc -> oc < length sites ->
    (forall i s, nth_error sites i = Some s -> (i < oc - k -> lo s) /\ (i > oc -> ro s)) ->
    exists sites', move_loop pull_left push_right k true sites (Z.of_nat oc) = Ok (sites', Z.of_nat (oc - k)) /\ length sites' = length sites /\
      (forall i s, nth_error sites' i = Some s -> (i < oc - k -> lo s) /\ (i > oc - k -> (k = 0 -> ro s) -> ro s)).
  Proof.
    revert sites oc. induction k as [|k IH]; intros sites oc Hk Hoc HG.
    - exists sites. rewrite Nat.sub_0_r. split; [reflexivity|]. split; auto. intros i s Hi. rewrite Nat.sub_0_r in HG. destruct (HG i s Hi); auto.
    - destruct oc as [|oc]; [lia|]. cbn [move_loop]. replace (Z.of_nat (Datatypes.S oc) - 1)%Z with (Z.of_nat oc) by lia.
      destruct (nth_error_ex sites (k := oc)) as [a Ea]; [lia|]. destruct (nth_error_ex sites (k := oc + 1)) as [b Eb]; [lia|].
      rewrite (zget_nat _ _ Ea). cbn [rbind]. replace (Z.of_nat oc + 1)%Z with (Z.of_nat (oc + 1)) by lia. rewrite (zget_nat _ _ Eb). cbn [rbind].
      pose proof (pull_ro a b) as Hro. destruct (pull_left a b) as [a' b']. rewrite zset_nat by lia. cbn [rbind]. rewrite zset_nat by (rewrite upd_length; lia). cbn [rbind].
      set (s2 := upd (upd sites oc a') (oc + 1) b').
      assert (Ls : length s2 = length sites) by (unfold s2; rewrite !upd_length; rewrite ?upd_length; lia).
      assert (Ns : forall j, nth_error s2 j = if j =? oc + 1 then Some b' else if j =? oc then Some a' else nth_error sites j).
      { intros j. unfold s2. rewrite nth_error_upd by (rewrite upd_length; lia). destruct (j =? oc + 1); auto. apply nth_error_upd. lia. }
      destruct (IH s2 oc) as [s3 [C1 [C2 C3]]]; try lia.
      { intros i s Hi. rewrite Ns in Hi. destruct (Nat.eqb_spec i (oc + 1)); [injection Hi as <-; split; [lia|auto]|].
        destruct (Nat.eqb_spec i oc); [split; lia|]. destruct (HG i s Hi) as [H1 H2]. split; intros; [apply H1|apply H2]; lia. }
      exists s3. split; [exact C1|]. split; [lia|]. intros i s Hi. destruct (C3 i s Hi) as [H1 H2]. split; [exact H1|].
      intros Hgt _. destruct k as [|k]; [|apply H2; [lia|discriminate]].
      cbn [move_loop] in C1. injection C1 as <-. rewrite Ns in Hi. destruct (Nat.eqb_spec i (oc + 1)); [injection Hi as <-; auto|].
      destruct (Nat.eqb_spec i oc); [lia|]. apply (HG i s Hi). lia.
  Qed.
  Lemma move_right_spec k sites oc : oc + k < length sites ->
    (forall i s, nth_error sites i = Some s -> (i < oc -> lo s) /\ (i > oc + k -> ro s)) ->
    exists sites', move_loop pull_left push_right k false sites (Z.of_nat oc) = Ok (sites', Z.of_nat (oc + k)) /\ length sites' = length sites /\
      (forall i s, nth_error sites' i = Some s -> (i < oc + k -> lo s) /\ (i > oc + k -> ro s)).
  Proof.
    revert sites oc. induction k as [|k IH]; intros sites oc Hoc HG.
    - exists sites. rewrite Nat.add_0_r in *. split; [reflexivity|]. split; auto.
    - cbn [move_loop].
      destruct (nth_error_ex sites (k := oc)) as [a Ea]; [lia|]. destruct (nth_error_ex sites (k := oc + 1)) as [b Eb]; [lia|].
      rewrite (zget_nat _ _ Ea). cbn [rbind]. replace (Z.of_nat oc + 1)%Z with (Z.of_nat (oc + 1)) by lia. rewrite (zget_nat _ _ Eb). cbn [rbind].
      pose proof (push_lo a b) as Hlo. destruct (push_right a b) as [a' b']. rewrite zset_nat by lia. cbn [rbind]. rewrite zset_nat by (rewrite upd_length; lia). cbn [rbind].
      set (s2 := upd (upd sites oc a') (oc + 1) b').
      assert (Ls : length s2 = length sites) by (unfold s2; rewrite !upd_length; rewrite ?upd_length; lia).
      assert (Ns : forall j, nth_error s2 j = if j =? oc + 1 then Some b' else if j =? oc then Some a' else nth_error sites j).
      { intros j. unfold s2. rewrite nth_error_upd by (rewrite upd_length; lia). destruct (j =? oc + 1); auto. apply nth_error_upd. lia. }
      destruct (IH s2 (oc + 1)) as [s3 [C1 [C2 C3]]]; try lia.
      { intros i s Hi. rewrite Ns in Hi. destruct (Nat.eqb_spec i (oc + 1)); [split; intros; [lia|injection Hi as <-; destruct (HG _ _ Eb); lia]|].
        destruct (Nat.eqb_spec i oc); [injection Hi as <-; split; [auto|lia]|]. destruct (HG i s Hi) as [H1 H2]. split; intros; [apply H1|apply H2]; lia. }
      exists s3. replace (oc + Datatypes.S k) with (oc + 1 + k) by lia. split; [exact C1|]. split; [lia|]. exact C3.
  Qed.
  Theorem move_oc_gauge sites oc i : oc < length sites -> i < length sites -> gauge sites (Z.of_nat oc) ->
    exists sites', move_oc pull_left push_right sites (Z.of_nat oc) (Z.of_nat i) = Ok (sites', Z.of_nat i) /\
      length sites' = length sites /\ gauge sites' (Z.of_nat i) /\ (i = oc -> sites' = sites).
  Proof.
    intros Ho Hi HG. unfold move_oc. destruct (Z.leb_spec 0 (Z.of_nat i)); [|lia].
    destruct (Z.ltb_spec (Z.of_nat i) (Z.of_nat (length sites))); [|lia]. cbn [andb negb].
    destruct (Z.ltb_spec (Z.of_nat i) (Z.of_nat oc)).
    - replace (Z.to_nat (Z.of_nat oc - Z.of_nat i)) with (oc - i) by lia.
      destruct (@move_left_spec (oc - i) sites oc) as [s' [A [B C]]]; try lia.
      { intros j s Hj. destruct (HG j s Hj) as [X1 X2]. split; intros; [apply X1|apply X2]; lia. }
      replace (oc - (oc - i)) with i in * by lia. exists s'. split; auto. split; auto. split; [|lia].
      intros j s Hj. destruct (C j s Hj) as [X1 X2]. split; intros; [apply X1; lia|apply X2; lia].
    - replace (Z.to_nat (Z.of_nat i - Z.of_nat oc)) with (i - oc) by lia.
      destruct (@move_right_spec (i - oc) sites oc) as [s' [A [B C]]]; try lia.
      { intros j s Hj. destruct (HG j s Hj) as [X1 X2]. split; intros; [apply X1|apply X2]; lia. }
      replace (oc + (i - oc)) with i in * by lia. exists s'. split; auto. split; auto. split.
      + intros j s Hj. destruct (C j s Hj) as [X1 X2]. split; intros; [apply X1; lia|apply X2; lia].
      + intros ->. rewrite Nat.sub_diag in A. cbn in A. injection A as <-. reflexivity.
  Qed.
  Lemma move_oc_out sites oc i : (i < 0 \/ Z.of_nat (length sites) <= i)%Z -> move_oc pull_left push_right sites oc i = Throw InvalidArgument.
  Proof.
    intros H. unfold move_oc. destruct (Z.leb_spec 0 i), (Z.ltb_spec i (Z.of_nat (length sites))); cbn [andb negb]; auto. lia.
  Qed.

End Mv.

Section P.
  Variables S E : Type.
  Variable lenv : nat -> S -> E -> E.
  Variable renv : nat -> S -> E -> E.
  Variable bond_update : bool -> nat -> S -> S -> E -> E -> S * S.
  Variables ledge redge dflt : E.
  Notation left_env := (left_env lenv ledge).
  Notation right_env := (right_env renv redge).
  Notation env_inv := (env_inv lenv renv ledge redge).
  Notation good := (good_call lenv renv ledge redge).

  (** ** Initial environments *)
  Lemma left_fill_spec sites L k i env : length sites = L -> length env = L + 2 -> i + k <= L ->
    (forall j, j <= i -> nth_error env j = Some (left_env sites j)) ->
    exists env', left_fill lenv k i sites env = Ok env' /\ length env' = L + 2 /\
      (forall j, j <= i + k -> nth_error env' j = Some (left_env sites j)) /\
      (forall j, i + k < j -> nth_error env' j = nth_error env j).
  Proof.
    intros HL. revert i env. induction k as [|k IH]; intros i env HE Hk HI.
    - exists env. rewrite Nat.add_0_r. auto.
    - destruct (nth_error_ex sites (k := i)) as [s Es]; [lia|]. cbn [left_fill]. unfold rnth at 1. rewrite Es. cbn [rbind].
      unfold rnth at 1. rewrite HI by lia. cbn [rbind]. replace (Z.of_nat i + 1)%Z with (Z.of_nat (i + 1)) by lia.
      rewrite zset_nat by lia. cbn [rbind].
      destruct (IH (Datatypes.S i) (upd env (i + 1) (lenv i s (left_env sites i)))) as [env' [E1 [E2 [E3 E4]]]]; try lia.
      { rewrite upd_length; lia. }
      { intros j Hj. rewrite nth_error_upd by lia. destruct (Nat.eqb_spec j (i + 1)) as [->|Hn]; [|apply HI; lia].
        replace (i + 1) with (Datatypes.S i) by lia. rewrite (left_env_S lenv renv bond_update ledge redge sites i Es). reflexivity. }
      exists env'. split; auto. split; auto. split; [intros j Hj; apply E3; lia|]. intros j Hj. rewrite E4 by lia.
      rewrite nth_error_upd by lia. destruct (Nat.eqb_spec j (i + 1)); [lia|]. reflexivity.
  Qed.
  Lemma right_fill_spec sites L k i env : length sites = L -> length env = L + 2 -> k <= i + 1 -> i < L ->
    (forall j, i + 1 <= j <= L -> nth_error env (j + 1) = Some (right_env sites j)) ->
    exists env', right_fill renv k i sites env = Ok env' /\ length env' = L + 2 /\
      (forall j, i + 1 - k <= j <= L -> nth_error env' (j + 1) = Some (right_env sites j)) /\
      (forall j, j <= i + 1 - k -> nth_error env' j = nth_error env j).
  Proof.
    intros HL. revert i env. induction k as [|k IH]; intros i env HE Hk Hi HI.
    - exists env. rewrite Nat.sub_0_r. auto.
    - destruct (nth_error_ex sites (k := i)) as [s Es]; [lia|]. cbn [right_fill]. unfold rnth at 1. rewrite Es. cbn [rbind].
      unfold rnth at 1. replace (i + 2) with (i + 1 + 1) by lia. rewrite HI by lia. cbn [rbind]. replace (Z.of_nat i + 1)%Z with (Z.of_nat (i + 1)) by lia.
      rewrite zset_nat by lia. cbn [rbind].
      assert (HN : forall j, i <= j <= L -> nth_error (upd env (i + 1) (renv i s (right_env sites (i + 1)))) (j + 1) = Some (right_env sites j)).
      { intros j Hj. rewrite nth_error_upd by lia. destruct (Nat.eqb_spec (j + 1) (i + 1)) as [Hn|Hn]; [|apply HI; lia].
        assert (j = i) as -> by lia. rewrite (right_env_S renv redge sites i Es). f_equal. f_equal. f_equal. lia. }
      destruct k as [|k].
      + cbn [right_fill]. eexists. split; [reflexivity|]. split; [rewrite upd_length; lia|]. split.
        * intros j Hj. apply HN. lia.
        * intros j Hj. rewrite nth_error_upd by lia. destruct (Nat.eqb_spec j (i + 1)); [lia|]. reflexivity.
      + destruct (IH (i - 1) (upd env (i + 1) (renv i s (right_env sites (i + 1))))) as [env' [E1 [E2 [E3 E4]]]]; try lia.
        { rewrite upd_length; lia. }
        { intros j Hj. apply HN. lia. }
        exists env'. split; auto. split; auto. split; [intros j Hj; apply E3; lia|]. intros j Hj. rewrite E4 by lia.
        rewrite nth_error_upd by lia. destruct (Nat.eqb_spec j (i + 1)); [lia|]. reflexivity.
  Qed.
  Theorem generate_env_spec sites oc : oc < length sites ->
    exists env, generate_env lenv renv dflt sites oc ledge redge = Ok env /\ length env = length sites + 2 /\
      (forall i, i <= oc -> nth_error env i = Some (left_env sites i)) /\
      (forall i, oc + 1 <= i <= length sites -> nth_error env (i + 1) = Some (right_env sites i)).
  Proof.
    intros Hoc. set (L := length sites) in *. unfold generate_env. fold L. set (env0 := upd _ (L + 1) redge).
    assert (LR : length (repeat dflt (L + 2)) = L + 2) by apply repeat_length.
    assert (LU : length (upd (repeat dflt (L + 2)) 0 ledge) = L + 2) by (rewrite upd_length; lia).
    assert (L0 : length env0 = L + 2) by (unfold env0; rewrite upd_length; lia).
    assert (H0 : nth_error env0 0 = Some ledge).
    { unfold env0. rewrite nth_error_upd by lia. destruct (Nat.eqb_spec 0 (L + 1)); [lia|].
      rewrite nth_error_upd by lia. reflexivity. }
    assert (H1 : nth_error env0 (L + 1) = Some redge).
    { unfold env0. rewrite nth_error_upd by lia. rewrite Nat.eqb_refl. reflexivity. }
    destruct (@left_fill_spec sites L oc 0 env0) as [env1 [A1 [A2 [A3 A4]]]]; auto; try lia.
    { intros j Hj. assert (j = 0) as -> by lia. rewrite H0. reflexivity. }
    rewrite A1. cbn [rbind].
    destruct (@right_fill_spec sites L (L - 1 - oc) (L - 1) env1) as [env2 [B1 [B2 [B3 B4]]]]; auto; try lia.
    { intros j Hj. assert (j = L) as -> by lia. rewrite A4 by lia. rewrite H1. unfold SpecDmrg.right_env. rewrite skipn_all2 by (unfold L; lia). reflexivity. }
    exists env2. split; auto. split; auto. split; [intros i Hi; rewrite B4 by lia; apply A3; lia|intros i Hi; apply B3; lia].
  Qed.

  Variables lo ro : S -> Prop.
  Hypothesis upd_lo : forall i a b l r, lo (fst (bond_update true i a b l r)).
  Hypothesis upd_ro : forall i a b l r, ro (snd (bond_update false i a b l r)).
  Notation gauge := (gauge lo ro).

  (** ** One sweep, as the driver starts it *)
  Notation nupd := round_trip.
  Notation good_sweep := (good_sweep lenv renv ledge redge).

  Lemma sweep_spec M p st : 1 <= M -> p < M -> env_inv (M + 1) p st -> pair_gauge lo ro p (d_sites st) ->
    exists st' log, sweep lenv renv bond_update (nupd M) st (start_dir M p) (Z.of_nat M - 1) = Ok (st', start_dir M p, log) /\
      env_inv (M + 1) p st' /\ pair_gauge lo ro p (d_sites st') /\ gauge (d_sites st') (true_centre M p) /\ good_sweep M log.
  Proof.
    intros HM Hp HI HG. unfold start_dir, SpecDmrg.good_sweep, true_centre, round_trip. destruct (Nat.eqb_spec M 1) as [->|HM1].
    - assert (p = 0) as -> by lia. cbn [sweep Nat.eqb Nat.sub].
      destruct (@update_spec _ _ lenv renv bond_update ledge redge lo ro upd_lo upd_ro 2 0 0 st 0) as [s1 [c1 [A1 [A2 [A3 [A4 [A5 [A6 A7]]]]]]]]; auto; try lia.
      rewrite A1. cbn [rbind]. rewrite Z.mul_0_l.
      destruct (@update_spec _ _ lenv renv bond_update ledge redge lo ro upd_lo upd_ro 2 0 0 s1 0) as [s2 [c2 [B1 [B2 [B3 [B4 [B5 [B6 B7]]]]]]]]; auto; try lia.
      rewrite B1. cbn [rbind]. rewrite Z.mul_0_l. exists s2, [c1; c2]. split; [reflexivity|]. split; [exact B2|]. split; [exact B3|]. split; [exact B7|].
      split; [reflexivity|]. split; [constructor; [exact A6|constructor; [exact B6|constructor]]|]. intros b Hb. assert (b = 0) as -> by lia. unfold updates. cbn [filter].
      rewrite A4, B4. reflexivity.
    - assert (exists ph, ph < 2 * (M - 1) /\ pos M ph = p /\ dir M ph = (if p =? 0 then 1%Z else (-1)%Z) /\
         (let q := phase M (2 * (M - 1) - 1) ph in (if (dir M q =? 1)%Z then Z.of_nat (pos M q) + 1 else Z.of_nat (pos M q))%Z = true_centre M p)) as [ph [P1 [P2 [P3 P4]]]].
      { destruct (Nat.eqb_spec p 0) as [->|Hp0].
        - exists 0. split; [lia|]. split; [reflexivity|]. split; [unfold dir; destruct (Nat.ltb_spec 0 (M - 1)); [reflexivity|lia]|].
          cbn zeta. rewrite phase_mod by lia. rewrite Nat.add_0_l, Nat.mod_small by lia. unfold dir, pos, true_centre.
          repeat (match goal with |- context [?x <=? ?y] => destruct (Nat.leb_spec x y) | |- context [?x <? ?y] => destruct (Nat.ltb_spec x y) | |- context [?x =? ?y] => destruct (Nat.eqb_spec x y) end); cbn; lia.
        - exists (2 * (M - 1) - p). split; [lia|]. split; [unfold pos; destruct (Nat.leb_spec (2 * (M - 1) - p) (M - 1)); lia|].
          split; [unfold dir; destruct (Nat.ltb_spec (2 * (M - 1) - p) (M - 1)); [lia|reflexivity]|].
          cbn zeta. rewrite phase_mod by lia. replace (2 * (M - 1) - p + (2 * (M - 1) - 1)) with ((2 * (M - 1) - p - 1) + 1 * (2 * (M - 1))) by lia.
          rewrite Nat.mod_add by lia. rewrite Nat.mod_small by lia. unfold dir, pos, true_centre.
          repeat (match goal with |- context [?x <=? ?y] => destruct (Nat.leb_spec x y) | |- context [?x <? ?y] => destruct (Nat.ltb_spec x y) | |- context [?x =? ?y] => destruct (Nat.eqb_spec x y) end); cbn; lia. }
      destruct (@sweep_run _ _ lenv renv bond_update ledge redge lo ro upd_lo upd_ro M (2 * (M - 1)) ph st) as [st' [log [S1 [S2 [S3 [S4 [S5 S6]]]]]]]; auto; try lia.
      { rewrite P2; auto. } { rewrite P2; auto. }
      rewrite phase_full in * by lia. rewrite P2 in *. rewrite P3 in *. exists st', log. split; [exact S1|]. split; auto. split; auto.
      split; [specialize (S6 ltac:(lia)); cbn zeta in S6, P4; rewrite P4 in S6; exact S6|].
      assert (HLv : forall n ph, length (visits M n ph) = n) by (induction n; intros; cbn; auto).
      split; [rewrite <- (map_length (@c_oc S E)), S4, map_length, HLv; reflexivity|]. split; auto.
      intros b Hb. cbn [negb andb]. rewrite <- (@visits_count M ph b) by lia. unfold updates.
      assert (HF : forall l (v : list nat), map (@c_oc S E) l = map Z.of_nat v ->
         length (filter (fun c => (c_oc c =? Z.of_nat b)%Z) l) = length (filter (fun k => k =? b) v)).
      { induction l as [|c l IH]; intros [|k v] H; try discriminate; auto. cbn in H. injection H as H1 H2. cbn [filter]. rewrite H1.
        destruct (Z.eqb_spec (Z.of_nat k) (Z.of_nat b)), (Nat.eqb_spec k b); try lia; cbn [length]; rewrite (IH v H2); reflexivity. }
      apply HF. exact S4.
  Qed.

  (** ** Repeated sweeps *)
  Lemma iterate_spec M p k it stop st : 1 <= M -> p < M -> env_inv (M + 1) p st -> pair_gauge lo ro p (d_sites st) ->
    exists st' log, iterate lenv renv bond_update k it stop st (start_dir M p) (nupd M) (Z.of_nat M - 1) = Ok (st', start_dir M p, log) /\
      env_inv (M + 1) p st' /\ length log <= k /\ (0 < k -> log <> []) /\ Forall (good_sweep M) log /\
      (k = 0 -> st' = st) /\ (0 < k -> gauge (d_sites st') (true_centre M p)).
  Proof.
    intros HM Hp. revert it st. induction k as [|k IH]; intros it st HI HG.
    - exists st, []. split; [reflexivity|]. split; auto. split; auto. split; [lia|]. split; [constructor|]. split; auto. lia.
    - destruct (sweep_spec HM Hp HI HG) as [s1 [l1 [A1 [A2 [A3 [A4 A5]]]]]]. cbn [iterate]. rewrite A1. cbn [rbind].
      destruct (stop it).
      + exists s1, [l1]. split; [reflexivity|]. split; auto. split; [cbn; lia|]. split; [discriminate|]. split; [constructor; [exact A5|constructor]|].
        split; [discriminate|auto].
      + destruct (IH (Datatypes.S it) s1 A2 A3) as [s2 [l2 [B1 [B2 [B3 [B4 [B5 [B6 B7]]]]]]]]. rewrite B1. cbn [rbind].
        exists s2, (l1 :: l2). split; [reflexivity|]. split; auto. split; [cbn; lia|]. split; [discriminate|]. split; [constructor; auto|].
        split; [discriminate|]. intros _. destruct k; [rewrite (B6 eq_refl); exact A4|apply B7; lia].
  Qed.

  Variable pull_left push_right : S -> S -> S * S.
  Hypothesis pull_ro : forall a b, ro (snd (pull_left a b)).
  Hypothesis push_lo : forall a b, lo (fst (push_right a b)).
  (** ** The driver *)
  Notation run := (dmrg_impl lenv renv bond_update pull_left push_right).
  Definition ready (sites : list S) (oc : nat) (st : dst S E) : Prop :=
    d_sites st = sites /\ d_oc st = Z.of_nat oc /\ generate_env lenv renv dflt sites oc ledge redge = Ok (d_env st).

  Theorem dmrg_spec dense k stop sites oc st : 2 <= length sites -> oc < length sites -> ready sites oc st -> gauge sites (Z.of_nat oc) ->
    let M := length sites - 1 in
    let p := if oc =? M then M - 1 else oc in
    exists sites' log, run dense k stop st = Ok (sites', Z.of_nat p, log) /\ length sites' = length sites /\
      length log <= k /\ (0 < k -> log <> []) /\ Forall (good_sweep M) log /\
      (0 < k -> gauge sites' (if dense && (p =? 0) then 0%Z else true_centre M p)).
  Proof.
    intros HL Ho [R1 [R2 R3]] HG M p. set (L := length sites) in *.
    destruct (generate_env_spec sites Ho) as [env [G1 [G2 [G3 G4]]]]. fold L in G2, G4. rewrite R3 in G1. injection G1 as G1.
    assert (HM : 1 <= M) by (unfold M; lia). assert (HLM : L = M + 1) by (unfold M; lia).
    assert (Hp : p < M). { unfold p. destruct (Nat.eqb_spec oc M); lia. }
    assert (Hpo : p <= oc <= p + 1) by (unfold p; destruct (Nat.eqb_spec oc M); lia).
    unfold dmrg_impl. rewrite R1, R2. fold L.
    replace (Z.of_nat L - 1)%Z with (Z.of_nat M) by lia. replace (Z.of_nat L - 2)%Z with (Z.of_nat M - 1)%Z by lia.
    assert (E1 : (if (Z.of_nat oc =? Z.of_nat M)%Z then (Z.of_nat oc - 1)%Z else Z.of_nat oc) = Z.of_nat p).
    { unfold p. destruct (Z.eqb_spec (Z.of_nat oc) (Z.of_nat M)), (Nat.eqb_spec oc M); lia. }
    rewrite E1.
    assert (E2 : (if (Z.of_nat M =? 1)%Z then 0%Z else if (Z.of_nat oc =? 0)%Z then 1%Z else (-1)%Z) = start_dir M p).
    { unfold start_dir, p. destruct (Z.eqb_spec (Z.of_nat M) 1), (Nat.eqb_spec M 1); try lia. 
      destruct (Nat.eqb_spec oc M), (Z.eqb_spec (Z.of_nat oc) 0); repeat (match goal with |- context [?x =? ?y] => destruct (Nat.eqb_spec x y) end); lia. }
    rewrite E2.
    assert (E3 : Z.to_nat (2 * (Z.of_nat M - 1 + (if (Z.of_nat M =? 1)%Z then 1 else 0))) = nupd M).
    { unfold round_trip. destruct (Z.eqb_spec (Z.of_nat M) 1), (Nat.eqb_spec M 1); lia. }
    rewrite E3.
    destruct (@iterate_spec M p k 0 stop (mkDst sites (d_env st) (Z.of_nat p))) as [st' [log [I1 [I2 [I3 [I4 [I5 [I6 I7]]]]]]]]; auto.
    { split; [reflexivity|]. cbn [d_sites d_env]. split; [lia|]. split; [congruence || lia|]. split.
      - intros i Hi. rewrite G1. apply G3. lia.
      - intros i Hi. rewrite G1. apply G4. lia. }
    { cbn [d_sites]. intros i s Hi. destruct (HG i s Hi) as [H1 H2]. split; intros; [apply H1|apply H2]; lia. }
    rewrite I1. cbn [rbind]. destruct I2 as [J1 [J2 _]]. rewrite J1. rewrite Z.eqb_refl. cbn [negb andb].
    destruct dense; cbn [andb].
    - destruct (Z.eqb_spec (Z.of_nat p) 0) as [P0|P0].
      + assert (p = 0) as Hp0 by lia. clearbody p. subst p. change (Z.of_nat 0 + 1 =? Z.of_nat 0)%Z with false. cbn iota.
        change (Z.of_nat 0 + 1)%Z with (Z.of_nat 1). unfold move_oc. destruct (Z.leb_spec 0 (Z.of_nat 0)); [|lia].
        destruct (Z.ltb_spec (Z.of_nat 0) (Z.of_nat (length (d_sites st')))); [|lia]. cbn [andb negb].
        change (Z.of_nat 0 <? Z.of_nat 1)%Z with true. cbn iota. change (Z.to_nat (Z.of_nat 1 - Z.of_nat 0)) with 1.
        destruct k as [|k].
        * rewrite (I6 eq_refl) in *. cbn [d_sites] in *.
          destruct (@move_left_spec S lo ro pull_left push_right pull_ro push_lo 1 sites 1) as [s' [A [B C]]]; try lia.
          { intros j s Hj. destruct (HG j s Hj) as [H1 H2]. split; intros; [lia|apply H2; lia]. }
          rewrite A. cbn [rbind]. exists s', log. split; [reflexivity|]. split; [lia|]. split; auto. split; auto. split; auto. lia.
        * assert (HGT := I7 ltac:(lia)).
          destruct (@move_left_spec S lo ro pull_left push_right pull_ro push_lo 1 (d_sites st') 1) as [s' [A [B C]]]; try lia.
          { intros j s Hj. destruct (HGT j s Hj) as [H1 H2]. split; intros; [lia|apply H2]. unfold true_centre. destruct (0 =? M - 1); lia. }
          rewrite A. cbn [rbind]. exists s', log. split; [reflexivity|]. split; [lia|]. split; auto. split; auto. split; auto.
          intros _. rewrite Nat.eqb_refl. intros j s Hj. destruct (C j s Hj) as [H1 H2]. split; intros; [lia|apply H2; lia].
      + rewrite Z.add_0_r, Z.eqb_refl. exists (d_sites st'), log. split; [reflexivity|]. split; [lia|]. split; auto. split; auto. split; auto.
        destruct (Nat.eqb_spec p 0); [lia|]. exact I7.
    - rewrite Z.eqb_refl. exists (d_sites st'), log. split; [reflexivity|]. split; [lia|]. split; auto.
  Qed.
End P.

(** ** Statements as used by the property file *)
Section Q.
  Variables S E : Type.
  Variable lenv renv : nat -> S -> E -> E.
  Variable bond_update : bool -> nat -> S -> S -> E -> E -> S * S.
  Variable pull_left push_right : S -> S -> S * S.
  Variables ledge redge dflt : E.

  Lemma dmrg_visits dense k stop sites oc env : 2 <= length sites -> oc < length sites ->
    generate_env lenv renv dflt sites oc ledge redge = Ok env ->
    exists sites' log,
      dmrg_impl lenv renv bond_update pull_left push_right dense k stop (mkDst sites env (Z.of_nat oc)) =
        Ok (sites', Z.of_nat (if oc =? length sites - 1 then length sites - 2 else oc), log) /\
      length sites' = length sites /\ length log <= k /\ (0 < k -> log <> []) /\
      Forall (good_sweep lenv renv ledge redge (length sites - 1)) log.
  Proof.
    intros H1 H2 H3.
    destruct (@dmrg_spec S E lenv renv bond_update ledge redge dflt (fun _ => True) (fun _ => True) (fun _ _ _ _ _ => I) (fun _ _ _ _ _ => I)
      pull_left push_right (fun _ _ => I) (fun _ _ => I) dense k stop sites oc (mkDst sites env (Z.of_nat oc)))
      as [s [l [A [B [C [D [F _]]]]]]]; auto.
    { split; [reflexivity|]. split; [reflexivity|exact H3]. }
    { intros i s _. auto. }
    exists s, l. rewrite A. replace (length sites - 2) with (length sites - 1 - 1) by lia. auto.
  Qed.
  Lemma sweep_visits M p st : 1 <= M -> p < M -> env_inv lenv renv ledge redge (M + 1) p st ->
    exists st' log, sweep lenv renv bond_update (round_trip M) st (start_dir M p) (Z.of_nat M - 1) = Ok (st', start_dir M p, log) /\
      d_oc st' = d_oc st /\ good_sweep lenv renv ledge redge M log.
  Proof.
    intros H1 H2 H3.
    destruct (@sweep_spec S E lenv renv bond_update ledge redge (fun _ => True) (fun _ => True) (fun _ _ _ _ _ => I) (fun _ _ _ _ _ => I) M p st) as [s [l [A [B [_ [_ C]]]]]]; auto.
    { intros i s _. auto. }
    exists s, l. split; auto. split; [|exact C]. rewrite (proj1 B), (proj1 H3). reflexivity.
  Qed.

  Variables lo ro : S -> Prop.
  Hypothesis upd_lo : forall i a b l r, lo (fst (bond_update true i a b l r)).
  Hypothesis upd_ro : forall i a b l r, ro (snd (bond_update false i a b l r)).
  Hypothesis pull_ro : forall a b, ro (snd (pull_left a b)).
  Hypothesis push_lo : forall a b, lo (fst (push_right a b)).
  Lemma dmrg_centre dense k stop sites oc env : 2 <= length sites -> oc < length sites ->
    generate_env lenv renv dflt sites oc ledge redge = Ok env -> gauge lo ro sites (Z.of_nat oc) -> 1 <= k ->
    exists sites' p log,
      dmrg_impl lenv renv bond_update pull_left push_right dense k stop (mkDst sites env (Z.of_nat oc)) = Ok (sites', Z.of_nat p, log) /\
      p = (if oc =? length sites - 1 then length sites - 2 else oc) /\
      gauge lo ro sites' (if dense && (p =? 0) then 0%Z else if p =? length sites - 2 then Z.of_nat p else (Z.of_nat p + 1)%Z).
  Proof.
    intros H1 H2 H3 H4 H5.
    destruct (@dmrg_spec S E lenv renv bond_update ledge redge dflt lo ro upd_lo upd_ro pull_left push_right pull_ro push_lo
      dense k stop sites oc (mkDst sites env (Z.of_nat oc))) as [s [l [A [B [C [D [F G]]]]]]]; auto.
    { split; [reflexivity|]. split; [reflexivity|exact H3]. }
    exists s, (if oc =? length sites - 1 then length sites - 2 else oc), l. rewrite A.
    replace (length sites - 2) with (length sites - 1 - 1) by lia. split; auto.
  Qed.
  Lemma dmrg_label dense k stop sites oc env : 2 <= length sites -> oc < length sites ->
    generate_env lenv renv dflt sites oc ledge redge = Ok env -> gauge lo ro sites (Z.of_nat oc) -> 1 <= k ->
    length sites - 2 <= oc \/ dense = true /\ oc = 0 ->
    exists sites' p log,
      dmrg_impl lenv renv bond_update pull_left push_right dense k stop (mkDst sites env (Z.of_nat oc)) = Ok (sites', p, log) /\ gauge lo ro sites' p.
  Proof.
    intros H1 H2 H3 H4 H5 H6. destruct (dmrg_centre dense stop H1 H2 H3 H4 H5) as [s [p [l [A [B C]]]]].
    exists s, (Z.of_nat p), l. split; auto. subst p. destruct H6 as [H6|[-> ->]].
    - destruct (Nat.eqb_spec oc (length sites - 1)) as [D|D].
      + rewrite Nat.eqb_refl in C. destruct (dense && (length sites - 2 =? 0)) eqn:F; [|exact C].
        apply andb_true_iff in F as [_ F]. apply Nat.eqb_eq in F. rewrite F in *. exact C.
      + assert (oc = length sites - 2) as -> by lia. rewrite Nat.eqb_refl in C.
        destruct (dense && (length sites - 2 =? 0)) eqn:F; [|exact C].
        apply andb_true_iff in F as [_ F]. apply Nat.eqb_eq in F. rewrite F in *. exact C.
    - destruct (Nat.eqb_spec 0 (length sites - 1)); [lia|]. exact C.
  Qed.
End Q.

(** Gauge flags: what a site is known to be. *)
Inductive flag := Left | Right | Centre.
Definition fupd (fwd : bool) (_ : nat) (a b : flag) (_ _ : unit) : flag * flag := if fwd then (Left, Centre) else (Centre, Right).
Definition fenv (_ : nat) (_ : flag) (_ : unit) : unit := tt.
Definition frun dense k sites oc :=
  do env <- generate_env fenv fenv tt sites oc tt tt ;
  dmrg_impl fenv fenv fupd (fun _ _ => (Centre, Right)) (fun _ _ => (Left, Centre)) dense k (fun _ => false) (mkDst sites env (Z.of_nat oc)).
Notation fgauge := (gauge (fun s => s = Left) (fun s => s = Right)).
Lemma fgauge_ok (sites : list flag) c : (0 <= c < Z.of_nat (length sites))%Z ->
  sites = repeat Left (Z.to_nat c) ++ nth (Z.to_nat c) sites Centre :: repeat Right (length sites - Z.to_nat c - 1) -> fgauge sites c.
Proof.
  intros H E i s Hi. rewrite E in Hi. split; intros Hc.
  - rewrite nth_error_app1 in Hi by (rewrite repeat_length; lia). apply nth_error_In, repeat_spec in Hi. exact Hi.
  - rewrite nth_error_app2 in Hi by (rewrite repeat_length; lia). rewrite repeat_length in Hi.
    destruct (i - Z.to_nat c) as [|n] eqn:D; [lia|]. cbn in Hi. apply nth_error_In, repeat_spec in Hi. exact Hi.
Qed.
Lemma dense_label_refuted : exists sites sites' p log, fgauge sites 1 /\ frun true 3 sites 1 = Ok (sites', p, log) /\ ~ fgauge sites' p.
Proof.
  exists [Left; Centre; Right; Right]. do 3 eexists. split; [apply fgauge_ok; [cbn; lia|reflexivity]|]. split; [vm_compute; reflexivity|].
  intros H. destruct (H 2 Centre eq_refl) as [_ H2]. specialize (H2 ltac:(reflexivity)). discriminate.
Qed.
Lemma block_label_refuted : exists sites sites' p log, fgauge sites 0 /\ frun false 3 sites 0 = Ok (sites', p, log) /\ ~ fgauge sites' p.
Proof.
  exists [Centre; Right; Right]. do 3 eexists. split; [apply fgauge_ok; [cbn; lia|reflexivity]|]. split; [vm_compute; reflexivity|].
  intros H. destruct (H 1 Centre eq_refl) as [_ H2]. specialize (H2 ltac:(reflexivity)). discriminate.
Qed.
Lemma zero_iter_refuted dense : exists sites sites' p log, fgauge sites 2 /\ frun dense 0 sites 2 = Ok (sites', p, log) /\ ~ fgauge sites' p.
Proof.
  exists [Left; Left; Centre]. destruct dense; do 3 eexists; (split; [apply fgauge_ok; [cbn; lia|reflexivity]|]); (split; [vm_compute; reflexivity|]);
  intros H; destruct (H 2 Centre eq_refl) as [_ H2]; specialize (H2 ltac:(reflexivity)); discriminate.
Qed.
