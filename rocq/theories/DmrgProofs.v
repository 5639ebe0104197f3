From Verif Require Import Base Index IndexProofs BTensor BTensorProofs Dmrg SpecDmrg.
Set Implicit Arguments.

Section U.
  Variable A : Type.
  Lemma upd_length (l : list A) n a : n < length l -> length (upd l n a) = length l.
  Proof. intros H. unfold upd. rewrite app_length. cbn [length]. rewrite firstn_length_le, skipn_length by lia. lia. Qed.
  Lemma nth_error_upd (l : list A) n a k : n < length l -> nth_error (upd l n a) k = if k =? n then Some a else nth_error l k.
  Proof.
    intros Hn. unfold upd. destruct (Nat.eqb_spec k n) as [->|Hk].
    - rewrite nth_error_app2; rewrite firstn_length_le by lia; [|lia]. rewrite Nat.sub_diag. reflexivity.
    - destruct (Nat.lt_ge_cases k n) as [H|H].
      + rewrite nth_error_app1 by (rewrite firstn_length_le; lia). rewrite <- (firstn_skipn n l) at 2.
        rewrite nth_error_app1; auto. rewrite firstn_length_le; lia.
      + rewrite nth_error_app2; rewrite firstn_length_le by lia; [|lia]. rewrite <- (firstn_skipn (Datatypes.S n) l) at 2.
        rewrite nth_error_app2; rewrite firstn_length_le by lia; [|lia]. destruct (k - n) eqn:E; [lia|]. cbn. f_equal. lia.
  Qed.
  Lemma firstn_upd (l : list A) n a k : k <= n -> n < length l -> firstn k (upd l n a) = firstn k l.
  Proof.
    intros H Hn. unfold upd. rewrite firstn_app, firstn_length_le by lia. replace (k - n) with 0 by lia. cbn. rewrite app_nil_r.
    rewrite firstn_firstn. f_equal. lia.
  Qed.
  Lemma skipn_upd (l : list A) n a k : n < k -> n < length l -> skipn k (upd l n a) = skipn k l.
  Proof.
    intros H Hn. unfold upd. rewrite skipn_app, firstn_length_le by lia.
    rewrite skipn_all2 by (rewrite firstn_length_le; lia). cbn [app]. destruct (k - n) eqn:E; [lia|].
    change (skipn (Datatypes.S n0) (a :: skipn (Datatypes.S n) l)) with (skipn n0 (skipn (Datatypes.S n) l)).
    rewrite skipn_skipn'. f_equal. lia.
  Qed.
  Lemma firstn_S_nth (l : list A) k s : nth_error l k = Some s -> firstn (Datatypes.S k) l = firstn k l ++ [s].
  Proof. revert l. induction k as [|k IH]; intros [|x l]; cbn; try discriminate; [intros [= ->]; auto|]. intros H. f_equal. apply IH. auto. Qed.
  Lemma skipn_nth (l : list A) k s : nth_error l k = Some s -> skipn k l = s :: skipn (Datatypes.S k) l.
  Proof. revert l. induction k as [|k IH]; intros [|x l]; cbn [nth_error skipn]; try discriminate; [intros [= ->]; auto|]. intros H. apply IH in H. exact H. Qed.
  Lemma nth_error_ex (l : list A) k : k < length l -> exists s, nth_error l k = Some s.
  Proof. intros H. destruct (nth_error l k) eqn:E; eauto. apply nth_error_None in E. lia. Qed.
  Lemma zget_nat (l : list A) k s : nth_error l k = Some s -> zget l (Z.of_nat k) = Ok s.
  Proof.
    intros H. unfold zget. destruct (Z.ltb_spec (Z.of_nat k) 0); [lia|]. rewrite Nat2Z.id. unfold rnth. rewrite H. reflexivity.
  Qed.
  Lemma zset_nat (l : list A) k a : k < length l -> zset l (Z.of_nat k) a = Ok (upd l k a).
  Proof.
    intros H. unfold zset. destruct (Z.leb_spec 0 (Z.of_nat k)); [|lia]. destruct (Z.ltb_spec (Z.of_nat k) (Z.of_nat (length l))); [|lia].
    cbn. rewrite Nat2Z.id. reflexivity.
  Qed.
End U.

Section Phases.
  (** ** Positions: phase of the back-and-forth motion over [M] bonds *)
  Definition pos (M ph : nat) : nat := if ph <=? M - 1 then ph else 2 * (M - 1) - ph.
  Definition dir (M ph : nat) : Z := if ph <? M - 1 then 1%Z else (-1)%Z.
  Definition nxt (M ph : nat) : nat := if ph + 1 =? 2 * (M - 1) then 0 else ph + 1.
  Lemma pos_lt M ph : 2 <= M -> ph < 2 * (M - 1) -> pos M ph < M.
  Proof. intros. unfold pos. destruct (Nat.leb_spec ph (M - 1)); lia. Qed.
  Lemma pos_nxt M ph : 2 <= M -> ph < 2 * (M - 1) -> (Z.of_nat (pos M (nxt M ph)) = Z.of_nat (pos M ph) + dir M ph)%Z.
  Proof.
    intros. unfold pos, nxt, dir. destruct (Nat.eqb_spec (ph + 1) (2 * (M - 1))), (Nat.leb_spec ph (M - 1)), (Nat.ltb_spec ph (M - 1));
      repeat (match goal with |- context [?x <=? ?y] => destruct (Nat.leb_spec x y) end); lia.
  Qed.
  Lemma dir_nxt M ph : 2 <= M -> ph < 2 * (M - 1) ->
    dir M (nxt M ph) = (dir M ph * (1 - 2 * (if (Z.of_nat (pos M (nxt M ph)) =? 0) || (Z.of_nat (pos M (nxt M ph)) =? Z.of_nat M - 1) then 1 else 0)))%Z.
  Proof.
    intros H1 H2. destruct (Z.eqb_spec (Z.of_nat (pos M (nxt M ph))) 0) as [D|D], (Z.eqb_spec (Z.of_nat (pos M (nxt M ph))) (Z.of_nat M - 1)) as [F|F];
    revert D F; cbn [orb]; unfold pos, nxt, dir; destruct (Nat.eqb_spec (ph + 1) (2 * (M - 1))), (Nat.ltb_spec ph (M - 1));
      repeat (match goal with |- context [?x <=? ?y] => destruct (Nat.leb_spec x y) | |- context [?x <? ?y] => destruct (Nat.ltb_spec x y) end); lia.
  Qed.
  Fixpoint phase (M n ph : nat) : nat := match n with 0 => ph | Datatypes.S n => phase M n (nxt M ph) end.
  Fixpoint visits (M n ph : nat) : list nat := match n with 0 => [] | Datatypes.S n => pos M ph :: visits M n (nxt M ph) end.
  Lemma nxt_lt M ph : 2 <= M -> ph < 2 * (M - 1) -> nxt M ph < 2 * (M - 1).
  Proof. intros. unfold nxt. destruct (Nat.eqb_spec (ph + 1) (2 * (M - 1))); lia. Qed.
  Lemma phase_lt M n ph : 2 <= M -> ph < 2 * (M - 1) -> phase M n ph < 2 * (M - 1).
  Proof. intros H1. revert ph. induction n as [|n IH]; intros ph H2; cbn; auto. apply IH. apply nxt_lt; auto. Qed.
  Lemma phase_mod M n ph : 2 <= M -> ph < 2 * (M - 1) -> phase M n ph = (ph + n) mod (2 * (M - 1)).
  Proof.
    intros H1. revert ph. induction n as [|n IH]; intros ph H2; cbn [phase].
    - rewrite Nat.add_0_r, Nat.mod_small; auto.
    - rewrite IH by (apply nxt_lt; auto). unfold nxt. destruct (Nat.eqb_spec (ph + 1) (2 * (M - 1))) as [D|D].
      + replace (ph + Datatypes.S n) with (n + 1 * (2 * (M - 1))) by lia. rewrite Nat.mod_add by lia. f_equal.
      + f_equal. lia.
  Qed.
  Lemma phase_full M ph : 2 <= M -> ph < 2 * (M - 1) -> phase M (2 * (M - 1)) ph = ph.
  Proof. intros. rewrite phase_mod by auto. rewrite <- (Nat.mul_1_l (2 * (M - 1))) at 1. rewrite Nat.mod_add by lia. apply Nat.mod_small; auto. Qed.
  Lemma phase_last M n ph : phase M (Datatypes.S n) ph = nxt M (phase M n ph).
  Proof. revert ph. induction n as [|n IH]; intros ph; auto. cbn [phase] in *. rewrite IH. reflexivity. Qed.

  (** How often each bond is updated in a full period. *)
  Lemma visits_seq M n ph : 2 <= M -> ph < 2 * (M - 1) -> visits M n ph = map (fun k => pos M ((ph + k) mod (2 * (M - 1)))) (seq 0 n).
  Proof.
    intros HM. revert ph. induction n as [|n IH]; intros ph Hph; auto. cbn [visits]. rewrite IH by (apply nxt_lt; auto).
    change (seq 0 (Datatypes.S n)) with (0 :: seq 1 n). cbn [map]. rewrite Nat.add_0_r, Nat.mod_small by auto. f_equal.
    rewrite <- seq_shift, map_map. apply map_ext. intros k. f_equal. unfold nxt. destruct (Nat.eqb_spec (ph + 1) (2 * (M - 1))).
    - replace (ph + Datatypes.S k) with (k + 1 * (2 * (M - 1))) by lia. rewrite Nat.mod_add by lia. reflexivity.
    - f_equal. lia.
  Qed.
  Lemma count_seq_eq n s c : length (filter (fun k => k =? c) (seq s n)) = if (s <=? c) && (c <? s + n) then 1 else 0.
  Proof.
    revert s. induction n as [|n IH]; intros s; cbn [seq filter].
    - destruct (Nat.leb_spec s c), (Nat.ltb_spec c (s + 0)); cbn; lia.
    - destruct (Nat.eqb_spec s c) as [->|Hn]; cbn [length]; rewrite IH;
      repeat (match goal with |- context [?x <=? ?y] => destruct (Nat.leb_spec x y) | |- context [?x <? ?y] => destruct (Nat.ltb_spec x y) end); cbn; lia.
  Qed.
  Lemma filter_two n s a b (f : nat -> bool) : a <> b -> (forall k, s <= k < s + n -> f k = (k =? a) || (k =? b)) ->
    length (filter f (seq s n)) = length (filter (fun k => k =? a) (seq s n)) + length (filter (fun k => k =? b) (seq s n)).
  Proof.
    intros Hab. revert s. induction n as [|n IH]; intros s H; auto. cbn [seq filter]. rewrite (H s) by lia.
    specialize (IH (Datatypes.S s) ltac:(intros k Hk; apply H; lia)).
    destruct (Nat.eqb_spec s a), (Nat.eqb_spec s b); cbn [orb length]; try lia.
  Qed.
  Lemma visits_count M ph b : 2 <= M -> ph < 2 * (M - 1) -> b < M ->
    length (filter (fun k => k =? b) (visits M (2 * (M - 1)) ph)) = if (b =? 0) || (b =? M - 1) then 1 else 2.
  Proof.
    intros HM Hph Hb. rewrite visits_seq by auto. set (P := 2 * (M - 1)) in *.
    assert (HF : forall A B (f : A -> B) (g : B -> bool) l, length (filter g (map f l)) = length (filter (fun x => g (f x)) l)).
    { intros A B f g l. induction l as [|x l IH]; cbn; auto. destruct (g (f x)); cbn; rewrite IH; reflexivity. }
    rewrite HF.
    (* the phases with position b are b and P - b *)
    assert (HR : forall x, x < P -> exists k, k < P /\ forall j, j < P -> ((ph + j) mod P = x <-> j = k)).
    { intros x Hx. destruct (Nat.lt_ge_cases x ph) as [H|H].
      - exists (x + P - ph). split; [lia|]. intros j Hj. split.
        + intros D. destruct (Nat.lt_ge_cases (ph + j) P); [rewrite Nat.mod_small in D by auto; lia|].
          replace (ph + j) with ((ph + j - P) + 1 * P) in D by lia. rewrite Nat.mod_add in D by lia. rewrite Nat.mod_small in D by lia. lia.
        + intros ->. replace (ph + (x + P - ph)) with (x + 1 * P) by lia. rewrite Nat.mod_add by lia. apply Nat.mod_small; auto.
      - exists (x - ph). split; [lia|]. intros j Hj. split.
        + intros D. destruct (Nat.lt_ge_cases (ph + j) P); [rewrite Nat.mod_small in D by auto; lia|].
          replace (ph + j) with ((ph + j - P) + 1 * P) in D by lia. rewrite Nat.mod_add in D by lia. rewrite Nat.mod_small in D by lia. lia.
        + intros ->. replace (ph + (x - ph)) with x by lia. apply Nat.mod_small; auto. }
    assert (HPos : forall y, y < P -> pos M y = b <-> y = b \/ (b <> 0 /\ b <> M - 1 /\ y = P - b)).
    { intros y Hy. unfold pos. destruct (Nat.leb_spec y (M - 1)); lia. }
    destruct (HR b ltac:(unfold P; lia)) as [k1 [K1 K1']].
    destruct ((b =? 0) || (b =? M - 1)) eqn:D.
    - transitivity (length (filter (fun k => k =? k1) (seq 0 P))).
      + f_equal. apply filter_ext_in. intros k Hk. apply in_seq in Hk. apply eq_true_iff_eq. rewrite !Nat.eqb_eq.
        rewrite HPos by (apply Nat.mod_upper_bound; lia). rewrite <- (K1' k) by lia.
        apply orb_true_iff in D. rewrite !Nat.eqb_eq in D. tauto.
      + rewrite count_seq_eq. destruct (Nat.ltb_spec k1 (0 + P)); [reflexivity|lia].
    - apply orb_false_iff in D as [E1 E2]. apply Nat.eqb_neq in E1, E2.
      destruct (HR (P - b) ltac:(unfold P in *; lia)) as [k2 [K2 K2']].
      assert (k1 <> k2). { intros ->. assert ((ph + k2) mod P = b) by (apply K1'; auto). assert ((ph + k2) mod P = P - b) by (apply K2'; auto). unfold P in *. lia. }
      rewrite (@filter_two P 0 k1 k2); auto.
      + rewrite !count_seq_eq. destruct (Nat.ltb_spec k1 (0 + P)), (Nat.ltb_spec k2 (0 + P)); try lia. reflexivity.
      + intros k Hk. apply eq_true_iff_eq. rewrite orb_true_iff, !Nat.eqb_eq. rewrite HPos by (apply Nat.mod_upper_bound; lia).
        rewrite <- (K1' k), <- (K2' k) by lia. tauto.
  Qed.
End Phases.

Section P.
  Variables S E : Type.
  Variable lenv : nat -> S -> E -> E.
  Variable renv : nat -> S -> E -> E.
  Variable bond_update : bool -> nat -> S -> S -> E -> E -> S * S.
  Variables ledge redge : E.
  Notation left_env := (left_env lenv ledge).
  Notation right_env := (right_env renv redge).
  Notation dmrg_update := (dmrg_update lenv renv bond_update).
  Notation sweep := (sweep lenv renv bond_update).

  Lemma from_left_app i e l m : from_left lenv i e (l ++ m) = from_left lenv (i + length l) (from_left lenv i e l) m.
  Proof.
    revert i e. induction l as [|s l IH]; intros i e; cbn [app from_left length]; [rewrite Nat.add_0_r; auto|].
    rewrite IH. f_equal. lia.
  Qed.
  Lemma left_env_S sites k s : nth_error sites k = Some s -> left_env sites (Datatypes.S k) = lenv k s (left_env sites k).
  Proof.
    intros H. unfold SpecDmrg.left_env. rewrite (firstn_S_nth _ _ H), from_left_app. cbn.
    rewrite firstn_length_le; [reflexivity|]. assert (nth_error sites k <> None) as HN by congruence. apply nth_error_Some in HN. lia.
  Qed.
  Lemma right_env_S sites k s : nth_error sites k = Some s -> right_env sites k = renv k s (right_env sites (Datatypes.S k)).
  Proof. intros H. unfold SpecDmrg.right_env. rewrite (skipn_nth _ _ H). reflexivity. Qed.
  Lemma left_env_upd sites n a k : k <= n -> n < length sites -> left_env (upd sites n a) k = left_env sites k.
  Proof. intros. unfold SpecDmrg.left_env. rewrite firstn_upd by auto. reflexivity. Qed.
  Lemma right_env_upd sites n a k : n < k -> n < length sites -> right_env (upd sites n a) k = right_env sites k.
  Proof. intros. unfold SpecDmrg.right_env. rewrite skipn_upd by auto. reflexivity. Qed.

  Notation env_inv := (env_inv lenv renv ledge redge).
  Variables lo ro : S -> Prop.
  (** Invariant: gauge around the pair at [p]. *)
  Definition pair_gauge (p : nat) (sites : list S) : Prop :=
    forall i s, nth_error sites i = Some s -> (i < p -> lo s) /\ (i > p + 1 -> ro s).
  Hypothesis upd_lo : forall i a b l r, lo (fst (bond_update true i a b l r)).
  Hypothesis upd_ro : forall i a b l r, ro (snd (bond_update false i a b l r)).

  Lemma update_spec L p p' st step : env_inv L p st -> p + 1 < L -> p' + 1 < L -> (step = 1 \/ step = -1 \/ step = 0)%Z ->
    (Z.of_nat p' = Z.of_nat p + step)%Z -> pair_gauge p (d_sites st) ->
    exists st' c, dmrg_update st step = Ok (st', c) /\ env_inv L p' st' /\ pair_gauge p' (d_sites st') /\
      c_oc c = Z.of_nat p /\ c_fwd c = (step =? 1)%Z /\ good_call lenv renv ledge redge L c /\
      (if (step =? 1)%Z then gauge lo ro (d_sites st') (Z.of_nat p + 1) else gauge lo ro (d_sites st') (Z.of_nat p)).
  Proof.
    intros [I1 [I2 [I3 [I4 I5]]]] Hp Hp' Hs Hpp HG. unfold Dmrg.dmrg_update. rewrite I1.
    destruct (nth_error_ex (d_sites st) (k := p)) as [a Ea]; [lia|]. destruct (nth_error_ex (d_sites st) (k := p + 1)) as [b Eb]; [lia|].
    rewrite (zget_nat _ _ Ea). cbn [rbind]. replace (Z.of_nat p + 1)%Z with (Z.of_nat (p + 1)) by lia. rewrite (zget_nat _ _ Eb). cbn [rbind].
    replace (Z.of_nat p - 1 + 1)%Z with (Z.of_nat p) by lia. rewrite (zget_nat _ _ (I4 p (le_n p))). cbn [rbind].
    replace (Z.of_nat p + 2 + 1)%Z with (Z.of_nat (p + 2 + 1)) by lia. rewrite (zget_nat _ _ (I5 (p + 2) ltac:(lia))). cbn [rbind].
    set (le := left_env (d_sites st) p). set (re := right_env (d_sites st) (p + 2)). rewrite !Nat2Z.id.
    pose proof (upd_lo p a b le re) as Hlo. pose proof (upd_ro p a b le re) as Hro.
    destruct (bond_update (step =? 1)%Z p a b le re) as [a' b'] eqn:EB.
    rewrite zset_nat by lia. cbn [rbind]. rewrite zset_nat by (rewrite upd_length; lia). cbn [rbind].
    set (s2 := upd (upd (d_sites st) p a') (p + 1) b').
    assert (Ls : length s2 = L) by (unfold s2; rewrite !upd_length; rewrite ?upd_length; lia).
    assert (Ns : forall k, nth_error s2 k = if k =? p + 1 then Some b' else if k =? p then Some a' else nth_error (d_sites st) k).
    { intros k. unfold s2. rewrite nth_error_upd by (rewrite upd_length; lia). destruct (k =? p + 1); auto. apply nth_error_upd. lia. }
    assert (LEs : forall i, i <= p -> left_env s2 i = left_env (d_sites st) i).
    { intros i Hi. unfold s2. rewrite left_env_upd by (rewrite ?upd_length; lia). apply left_env_upd; lia. }
    assert (REs : forall i, p + 2 <= i -> right_env s2 i = right_env (d_sites st) i).
    { intros i Hi. unfold s2. rewrite right_env_upd by (rewrite ?upd_length; lia). apply right_env_upd; lia. }
    assert (GC : good_call lenv renv ledge redge L (mkCall (Z.of_nat p) (step =? 1)%Z (d_sites st) le re)).
    { repeat split; cbn; try lia; rewrite Nat2Z.id; reflexivity. }
    destruct (Z.eqb_spec step 1) as [E1|E1].
    - replace (Z.of_nat p + 1)%Z with (Z.of_nat (p + 1)) by lia. rewrite zset_nat by lia. cbn [rbind].
      eexists _, _. split; [reflexivity|]. cbn [d_sites d_env d_oc c_oc c_fwd].
      assert (p' = p + 1) as -> by lia. rewrite EB in Hlo. cbn in Hlo.
      assert (HGG : gauge lo ro s2 (Z.of_nat p + 1)).
      { intros i s Hi. rewrite Ns in Hi. destruct (Nat.eqb_spec i (p + 1)); [split; lia|].
        destruct (Nat.eqb_spec i p); [injection Hi as <-; split; [auto|lia]|]. destruct (HG _ _ Hi) as [H1 H2]. split; intros; [apply H1|apply H2]; lia. }
      split; [|split; [|split; [auto|split; [auto|split; [exact GC|]]]]].
      + split; [cbn; lia|]. cbn [d_sites d_env d_oc]. split; auto. split; [rewrite upd_length; lia|]. split.
        * intros i Hi. rewrite nth_error_upd by lia. destruct (Nat.eqb_spec i (p + 1)) as [->|Hn].
          -- f_equal. replace (p + 1) with (Datatypes.S p) by lia. rewrite left_env_S with (s := a').
             ++ rewrite LEs by lia. reflexivity.
             ++ rewrite Ns. destruct (Nat.eqb_spec p (p + 1)); [lia|]. rewrite Nat.eqb_refl. reflexivity.
          -- rewrite I4 by lia. rewrite LEs by lia. reflexivity.
        * intros i Hi. rewrite nth_error_upd by lia. destruct (Nat.eqb_spec (i + 1) (p + 1)); [lia|]. rewrite I5 by lia. rewrite REs by lia. reflexivity.
      + intros i s Hi. destruct (HGG _ _ Hi) as [H1 H2]. split; intros; [apply H1|apply H2]; lia.
      + replace (Z.of_nat (p + 1)) with (Z.of_nat p + 1)%Z by lia. exact HGG.
    - replace (Z.of_nat (p + 1) + 1)%Z with (Z.of_nat (p + 2)) by lia. rewrite zset_nat by lia. cbn [rbind].
      eexists _, _. split; [reflexivity|]. cbn [d_sites d_env d_oc c_oc c_fwd].
      rewrite EB in Hro. cbn in Hro.
      assert (HGG : gauge lo ro s2 (Z.of_nat p)).
      { intros i s Hi. rewrite Ns in Hi. destruct (Nat.eqb_spec i (p + 1)); [injection Hi as <-; split; [lia|auto]|].
        destruct (Nat.eqb_spec i p); [split; lia|]. destruct (HG _ _ Hi) as [H1 H2]. split; intros; [apply H1|apply H2]; lia. }
      split; [|split; [|split; [auto|split; [auto|split; [exact GC|]]]]].
      + split; [cbn; lia|]. cbn [d_sites d_env d_oc]. split; auto. split; [rewrite upd_length; lia|]. split.
        * intros i Hi. rewrite nth_error_upd by lia. destruct (Nat.eqb_spec i (p + 2)); [lia|]. rewrite I4 by lia. rewrite LEs by lia. reflexivity.
        * intros i Hi. rewrite nth_error_upd by lia. destruct (Nat.eqb_spec (i + 1) (p + 2)) as [Hn|Hn].
          -- assert (i = p + 1) as -> by lia. f_equal. rewrite right_env_S with (s := b').
             ++ f_equal. replace (Datatypes.S (p + 1)) with (p + 2) by lia. rewrite REs by lia. reflexivity.
             ++ rewrite Ns. rewrite Nat.eqb_refl. reflexivity.
          -- rewrite I5 by lia. rewrite REs by lia. reflexivity.
      + intros i s Hi. destruct (HGG _ _ Hi) as [H1 H2]. split; intros; [apply H1|apply H2]; lia.
      + exact HGG.
  Qed.

  (** A run of [n] updates from a phase. *)
  Lemma sweep_run M n ph st : 2 <= M -> ph < 2 * (M - 1) -> env_inv (M + 1) (pos M ph) st -> pair_gauge (pos M ph) (d_sites st) ->
    exists st' log, sweep n st (dir M ph) (Z.of_nat M - 1) = Ok (st', dir M (phase M n ph), log) /\
      env_inv (M + 1) (pos M (phase M n ph)) st' /\ pair_gauge (pos M (phase M n ph)) (d_sites st') /\
      map (@c_oc S E) log = map Z.of_nat (visits M n ph) /\ Forall (good_call lenv renv ledge redge (M + 1)) log /\
      (0 < n -> let q := phase M (n - 1) ph in
         gauge lo ro (d_sites st') (if (dir M q =? 1)%Z then Z.of_nat (pos M q) + 1 else Z.of_nat (pos M q))).
  Proof.
    intros HM. revert ph st. induction n as [|n IH]; intros ph st Hph HI HG.
    - exists st, []. split; [reflexivity|]. split; [exact HI|]. split; [exact HG|]. split; [reflexivity|]. split; [constructor|]. intros H; lia.
    - pose proof (pos_lt HM Hph) as HP. pose proof (nxt_lt HM Hph) as HN. pose proof (pos_lt HM HN) as HP'.
      destruct (@update_spec (M + 1) (pos M ph) (pos M (nxt M ph)) st (dir M ph)) as [st' [c [U1 [U2 [U3 [U4 [U5 [U6 U7]]]]]]]]; auto; try lia.
      { unfold dir. destruct (ph <? M - 1); auto. }
      { apply pos_nxt; auto. }
      cbn [Dmrg.sweep]. rewrite U1. cbn [rbind]. rewrite (proj1 U2). rewrite <- dir_nxt by auto.
      destruct (IH (nxt M ph) st') as [st'' [log [S1 [S2 [S3 [S4 [S5 S6]]]]]]]; auto.
      rewrite S1. cbn [rbind]. exists st'', (c :: log). split; [reflexivity|]. split; auto. split; auto.
      split; [cbn; rewrite U4, S4; reflexivity|]. split; [constructor; auto|]. intros _.
      destruct n as [|n].
      + cbn [Dmrg.sweep] in S1. injection S1 as <- _. cbn. destruct (dir M ph =? 1)%Z; exact U7.
      + replace (Datatypes.S (Datatypes.S n) - 1) with (Datatypes.S n) by lia. cbn [phase].
        specialize (S6 ltac:(lia)). replace (Datatypes.S n - 1) with n in S6 by lia. exact S6.
  Qed.

End P.
