(** Stable sorting, runs of equal keys, and slices: lemmas about the pieces of the block singular value decomposition. *)
From Verif Require Import Base Quantity QuantityProofs FlatMap SpecFlatMap FlatMapProofs Ring Index SpecIndex Dense IndexProofs BTensor SpecBTensor LegsProofs
  BTensorProofs BSvd.
From Coq Require Import Permutation.
Set Implicit Arguments.

Section Sort.
  Variable G : abgroup.
  Variable R : ring.
  Variable K : Type.
  Notation entry := (list nat * dense R)%type.
  Variable key : entry -> K.
  Variable keqb klt : K -> K -> bool.
  Hypothesis HK : key_order keqb klt.
  Notation lt := (fun a b => klt (key a) (key b)).
  Notation has k := (fun e => keqb (key e) k).

  Lemma has_iff k e : keqb (key e) k = true <-> key e = k. Proof. apply (proj1 HK). Qed.
  Lemma filter_insert k x l : filter (has k) (stable_insert lt x l) = filter (has k) (x :: l).
  Proof.
    induction l as [|y r IH]; cbn [stable_insert]; [reflexivity|]. destruct (klt (key y) (key x)) eqn:E; [|reflexivity].
    cbn [filter]. rewrite IH. cbn [filter]. destruct (keqb (key y) k) eqn:E1, (keqb (key x) k) eqn:E2; try reflexivity.
    apply has_iff in E1, E2. rewrite E1, E2 in E. rewrite (proj1 (proj2 HK)) in E. discriminate.
  Qed.
  Lemma filter_sort k l : filter (has k) (stable_sort lt l) = filter (has k) l.
  Proof. induction l as [|x l IH]; [reflexivity|]. unfold stable_sort in *. cbn [fold_right]. rewrite filter_insert. cbn [filter]. rewrite IH. reflexivity. Qed.
  Definition upward (l : list entry) : Prop := StronglySorted (fun a b => klt (key b) (key a) = false) l.
  Lemma insert_In x l y : In y (stable_insert lt x l) <-> y = x \/ In y l.
  Proof. induction l as [|z r IH]; cbn; [intuition|]. destruct (klt _ _); cbn; rewrite ?IH; intuition. Qed.
  Lemma insert_upward x l : upward l -> upward (stable_insert lt x l).
  Proof.
    induction 1 as [|y r Hr IH HF]; cbn; [repeat constructor|]. destruct (klt (key y) (key x)) eqn:E.
    - constructor; [exact IH|]. rewrite Forall_forall in *. intros z [->|Hz]%insert_In; [|auto].
      destruct (klt (key x) (key y)) eqn:E'; [|reflexivity]. pose proof (proj1 (proj2 (proj2 HK)) _ _ _ E E') as C. rewrite (proj1 (proj2 HK)) in C. discriminate.
    - constructor; [constructor; auto|]. constructor; [exact E|]. rewrite Forall_forall in *. intros z Hz. specialize (HF z Hz). cbn in HF.
      destruct (klt (key z) (key x)) eqn:C; [|reflexivity]. destruct (proj2 (proj2 (proj2 HK)) (key x) (key y)) as [L|[L|L]]; [| |congruence].
      + pose proof (proj1 (proj2 (proj2 HK)) _ _ _ C L). congruence.
      + congruence.
  Qed.
  Lemma sort_upward l : upward (stable_sort lt l).
  Proof. induction l as [|x l IH]; [constructor|]. unfold stable_sort. cbn. apply insert_upward, IH. Qed.
  Lemma sort_In l x : In x (stable_sort lt l) <-> In x l.
  Proof. induction l as [|y l IH]; [reflexivity|]. unfold stable_sort. cbn [fold_right]. rewrite insert_In. cbn. rewrite <- IH. unfold stable_sort. intuition. Qed.

  Lemma filter_all A (f : A -> bool) l : (forall x, In x l -> f x = true) -> filter f l = l.
  Proof. induction l as [|x l IH]; intros H; cbn; [reflexivity|]. rewrite (H x) by (left; reflexivity). f_equal. apply IH. intros; apply H; right; auto. Qed.
  Lemma filter_none A (f : A -> bool) l : (forall x, In x l -> f x = false) -> filter f l = [].
  Proof. induction l as [|x l IH]; intros H; cbn; [reflexivity|]. rewrite (H x) by (left; reflexivity). apply IH. intros; apply H; right; auto. Qed.
  Lemma runs_spec (l : list entry) : forall x acc, (forall e, In e acc -> key e = key x) -> In x acc -> upward l -> (forall e, In e l -> klt (key e) (key x) = false) ->
    exists ks, runs (fun a b => keqb (key a) (key b)) x acc l = map (fun k => filter (has k) (acc ++ l)) ks /\ NoDup ks /\
      (forall k, In k ks <-> exists e, In e (acc ++ l) /\ key e = k).
  Proof.
    induction l as [|y r IH]; intros x acc HA HX HU HL; cbn [runs].
    - exists [key x]. cbn. rewrite app_nil_r. split; [f_equal; symmetry; apply filter_all; intros e He; apply has_iff; auto|]. split; [constructor; [intros []|constructor]|].
      intros k. split; [intros [<-|[]]; exists x; auto|intros (e & He & <-); left; symmetry; auto].
    - inversion HU as [|? ? HUr HF]; subst. rewrite Forall_forall in HF. destruct (keqb (key x) (key y)) eqn:E.
      + apply (proj1 HK) in E. destruct (IH x (acc ++ [y])) as (ks & H1 & H2 & H3); auto.
        * intros e He. apply in_app_or in He as [He|[<-|[]]]; auto.
        * apply in_or_app. auto.
        * intros e He. apply HL. right. exact He.
        * exists ks. rewrite <- app_assoc in H1, H3. auto.
      + destruct (IH y [y]) as (ks & H1 & H2 & H3); auto.
        * intros e [<-|[]]. reflexivity.
        * left. reflexivity.
        * assert (NE : key x <> key y) by (intros C; apply (proj1 HK) in C; congruence).
          assert (LT : klt (key x) (key y) = true). { destruct (proj2 (proj2 (proj2 HK)) (key x) (key y)) as [L|[L|L]]; [exact L|contradiction|]. rewrite (HL y) in L by (left; reflexivity). discriminate. }
          assert (NX : forall e, In e (y :: r) -> key e <> key x).
          { intros e [<-|He]; [congruence|]. intros C. specialize (HF e He). cbn in HF. rewrite C in HF. congruence. }
          exists (key x :: ks). cbn [map]. split; [f_equal|split].
          -- rewrite filter_app, (@filter_none _ _ (y :: r)), app_nil_r. { symmetry. apply filter_all. intros e He. apply has_iff. auto. }
             intros e He. destruct (keqb (key e) (key x)) eqn:C; [|reflexivity]. apply has_iff in C. apply NX in He. contradiction.
          -- cbn [app] in H1. rewrite H1. apply map_ext_in. intros k Hk. rewrite filter_app, (@filter_none _ _ acc); [reflexivity|].
             intros e He. destruct (keqb (key e) k) eqn:C; [|reflexivity]. apply has_iff in C. apply H3 in Hk as (e' & He' & <-). apply NX in He'. rewrite (HA e He) in C. congruence.
          -- constructor; [|exact H2]. intros Hk. apply H3 in Hk as (e & He & C). apply NX in He. contradiction.
          -- intros k. split.
             ++ intros [<-|Hk]; [exists x; split; [apply in_or_app|]; auto|]. apply H3 in Hk as (e & He & <-). exists e. split; [apply in_or_app; right; exact He|reflexivity].
             ++ intros (e & He & <-). apply in_app_or in He as [He|He]; [left; symmetry; auto|right; apply H3; exists e; auto].
  Qed.
  Lemma pieces_spec l : exists ks, match stable_sort lt l with [] => [] | x :: r => runs (fun a b => keqb (key a) (key b)) x [x] r end = map (fun k => filter (has k) l) ks /\
    NoDup ks /\ forall k, In k ks <-> exists e, In e l /\ key e = k.
  Proof.
    pose proof (sort_upward l) as HU. pose proof (sort_In l) as HI. pose proof (fun k => filter_sort k l) as HF.
    destruct (stable_sort lt l) as [|x r] eqn:E.
    - exists []. cbn. split; [reflexivity|]. split; [constructor|]. intros k. split; [intros []|intros (e & He & _); apply HI in He; exact He].
    - inversion HU as [|? ? HUr HFx]; subst. rewrite Forall_forall in HFx. destruct (@runs_spec r x [x]) as (ks & H1 & H2 & H3); auto.
      + intros e [<-|[]]. reflexivity.
      + left. reflexivity.
      + exists ks. split; [rewrite H1; apply map_ext_in; intros k _; apply HF|]. split; [exact H2|]. intros k. rewrite H3. cbn [app]. split; intros (e & He & Hk); exists e; (split; [apply HI; exact He|exact Hk]).
  Qed.
End Sort.

(** Slices that follow each other without gap; [sz] gives the lengths of the sections. *)
Notation slice := (nat * (nat * nat))%type.
Inductive tiled (sz : nat -> nat) : list slice -> nat -> Prop :=
| tiled_nil : tiled sz [] 0
| tiled_snoc l n b : tiled sz l n -> tiled sz (l ++ [(b, (n, sz b))]) (n + sz b).
Definition tiling (sz : nat -> nat) (l : list slice) (n : nat) : Prop := NoDup (map fst l) /\ exists l', Permutation l' l /\ tiled sz l' n.

Lemma tiled_len sz l n b o s : tiled sz l n -> In (b, (o, s)) l -> s = sz b /\ o + s <= n.
Proof. induction 1 as [|l n b' H IH]; intros HI; [destruct HI|]. apply in_app_or in HI as [HI|[E|[]]]; [destruct (IH HI); split; [auto|lia]|]. injection E as <- <- <-. split; [reflexivity|lia]. Qed.
Lemma tiled_hit sz l n : tiled sz l n -> NoDup (map fst l) -> forall b o s b' o' s' x, In (b, (o, s)) l -> In (b', (o', s')) l -> o <= x < o + s -> o' <= x < o' + s' -> b = b'.
Proof.
  induction 1 as [|l n c H IH]; intros HN; [intros ? ? ? ? ? ? ? []|]. rewrite map_app in HN. cbn in HN.
  pose proof (NoDup_remove_1 _ _ _ HN) as HN'. rewrite app_nil_r in HN'. intros b o s b' o' s' x H1 H2 H3 H4.
  apply in_app_or in H1, H2. destruct H1 as [H1|[E1|[]]], H2 as [H2|[E2|[]]].
  - eapply (IH HN'); eauto.
  - injection E2 as <- <- <-. apply (tiled_len _ _ _ H) in H1. lia.
  - injection E1 as <- <- <-. apply (tiled_len _ _ _ H) in H2. lia.
  - congruence.
Qed.
Lemma tiling_len sz l n b o s : tiling sz l n -> In (b, (o, s)) l -> s = sz b /\ o + s <= n.
Proof. intros (_ & l' & P & H) HI. eapply tiled_len; [exact H|]. eapply Permutation_in; [symmetry; exact P|exact HI]. Qed.
Lemma tiling_hit sz l n b o s b' o' s' x : tiling sz l n -> In (b, (o, s)) l -> In (b', (o', s')) l -> o <= x < o + s -> o' <= x < o' + s' -> b = b'.
Proof.
  intros (HN & l' & P & H) H1 H2. eapply (tiled_hit H); [|eapply Permutation_in; [symmetry; exact P|exact H1]|eapply Permutation_in; [symmetry; exact P|exact H2]].
  eapply Permutation_NoDup; [|exact HN]. apply Permutation_map. symmetry. exact P.
Qed.
Lemma find_slice_In b s l : NoDup (map fst l) -> In (b, s) l -> find_slice b l = Ok s.
Proof.
  induction l as [|(k, s') l IH]; intros HN HI; [destruct HI|]. cbn in *. inversion HN as [|? ? N1 N2]; subst. destruct HI as [E|HI].
  - injection E as -> ->. rewrite Nat.eqb_refl. reflexivity.
  - destruct (k =? b) eqn:E; [|auto]. apply Nat.eqb_eq in E. subst. exfalso. apply N1. apply (in_map fst) in HI. exact HI.
Qed.
Lemma tiling_sum (R : ring) sz l n (f : nat -> R) : tiling sz l n ->
  sumf R f (seq 0 n) = sumf R (fun '(b, (o, s)) => sumf R (fun x => f (o + x)) (seq 0 s)) l.
Proof.
  intros (_ & l' & P & H). rewrite <- (sumf_perm R _ P). clear P l. induction H as [|l n b H IH]; [reflexivity|].
  rewrite seq_app, !sumf_app, IH. f_equal. cbn [sumf fold_right]. rewrite radd_0_r. change (0 + n) with n.
  assert (E : forall k a, sumf R f (seq (n + a) k) = sumf R (fun x => f (n + x)) (seq a k)).
  { clear. induction k as [|k IHk]; intros a; [reflexivity|]. cbn [seq]. rewrite !sumf_cons. f_equal. replace (S (n + a)) with (n + S a) by lia. apply IHk. }
  rewrite <- (E (sz b) 0), Nat.add_0_r. reflexivity.
Qed.

(** Slices of disjoint sets of sections of one dimension are no longer than the dimension. *)
Lemma sum_list_perm l l' : Permutation l l' -> sum_list l = sum_list l'.
Proof. unfold sum_list. induction 1; cbn; lia. Qed.
Lemma sum_list_app' l l' : sum_list (l ++ l') = sum_list l + sum_list l'.
Proof. unfold sum_list. induction l; cbn; lia. Qed.
Lemma tiling_total sz l n : tiling sz l n -> n = sum_list (map sz (map fst l)).
Proof.
  intros (_ & l' & P & H). rewrite <- (sum_list_perm (Permutation_map sz (Permutation_map fst P))). clear P l.
  induction H as [|l n b H IH]; [reflexivity|]. rewrite !map_app, sum_list_app', <- IH. cbn. lia.
Qed.
Lemma sum_nth_seq (l : list nat) : sum_list (map (fun i => nth i l 0) (seq 0 (length l))) = sum_list l.
Proof. unfold sum_list. induction l as [|a l IH]; [reflexivity|]. cbn [length seq map fold_right nth]. rewrite <- seq_shift, map_map. cbn [nth]. rewrite IH. reflexivity. Qed.
Lemma sum_sub (f : nat -> nat) l : forall m, NoDup l -> incl l m -> sum_list (map f l) <= sum_list (map f m).
Proof.
  induction l as [|a l IH]; intros m ND HI; [cbn; lia|]. inversion ND as [|? ? N1 N2]; subst. destruct (in_split a m (HI a (or_introl eq_refl))) as (m1 & m2 & ->).
  assert (HI' : incl l (m1 ++ m2)). { intros x Hx. specialize (HI x (or_intror Hx)). apply in_app_or in HI as [H|[->|H]]; [apply in_or_app; auto|contradiction|apply in_or_app; auto]. }
  specialize (IH _ N2 HI'). rewrite map_app, sum_list_app' in *. change (sum_list (map f (a :: l))) with (f a + sum_list (map f l)). change (sum_list (map f (a :: m2))) with (f a + sum_list (map f m2)). lia.
Qed.
Lemma nodup_concat A (L : list (list A)) : (forall l, In l L -> NoDup l) -> (forall c c' l l' x, nth_error L c = Some l -> nth_error L c' = Some l' -> In x l -> In x l' -> c = c') -> NoDup (concat L).
Proof.
  induction L as [|l L IH]; intros H1 H2; [constructor|]. cbn.
  assert (NL : NoDup (concat L)). { apply IH; [intros; apply H1; right; assumption|]. intros c c' m m' x E E' I I'. specialize (H2 (S c) (S c') m m' x E E' I I'). congruence. }
  assert (Nl : NoDup l) by (apply H1; left; reflexivity). assert (DJ : forall x, In x l -> ~ In x (concat L)).
  { intros x Hx Hc. apply in_concat in Hc as (m & Hm & Hx'). apply In_nth_error in Hm as (c & Hc). specialize (H2 0 (S c) l m x eq_refl Hc Hx Hx'). discriminate. }
  revert DJ. clear - Nl NL. induction Nl as [|a l Ha Nl IHl]; intros DJ; [exact NL|]. cbn. constructor; [|apply IHl; intros x Hx; apply DJ; right; exact Hx].
  intros C. apply in_app_or in C as [C|C]; [contradiction|]. apply (DJ a); [left; reflexivity|exact C].
Qed.
Lemma tiles_total (l ks : list nat) (L : list (list slice)) : length ks = length L ->
  (forall c s, nth_error L c = Some s -> exists m, tiling (fun i => nth i l 0) s m /\ nth c ks 0 <= m /\ forall i, In i (map fst s) -> i < length l) ->
  (forall c c' s s' i, nth_error L c = Some s -> nth_error L c' = Some s' -> In i (map fst s) -> In i (map fst s') -> c = c') -> sum_list ks <= sum_list l.
Proof.
  intros EL HT HD. set (K := map (map fst) L).
  assert (NK : NoDup (concat K)).
  { apply nodup_concat.
    - intros k Hk. apply in_map_iff in Hk as (s & <- & Hs). apply In_nth_error in Hs as (c & Hc). destruct (HT c s Hc) as (m & (N & _) & _). exact N.
    - intros c c' k k' x E E' I I'. unfold K in E, E'. rewrite nth_error_map in E, E'. destruct (nth_error L c) as [s|] eqn:Es; [|discriminate]. destruct (nth_error L c') as [s'|] eqn:Es'; [|discriminate]. cbn in E, E'. injection E as <-. injection E' as <-. eapply HD; eauto. }
  assert (IK : incl (concat K) (seq 0 (length l))).
  { intros i Hi. apply in_concat in Hi as (k & Hk & Hi). apply in_map_iff in Hk as (s & <- & Hs). apply In_nth_error in Hs as (c & Hc). destruct (HT c s Hc) as (m & _ & _ & H). apply in_seq. specialize (H i Hi). lia. }
  pose proof (sum_sub (fun i => nth i l 0) NK IK) as H. rewrite sum_nth_seq in H. etransitivity; [|exact H]. unfold K. clear - EL HT. revert ks EL HT.
  induction L as [|s L IH]; intros [|k ks] EL HT; try discriminate; [cbn; lia|]. change (sum_list (k :: ks)) with (k + sum_list ks). cbn [map concat]. rewrite map_app, sum_list_app'. destruct (HT 0 s eq_refl) as (m & Tm & Hk & _). rewrite (tiling_total Tm) in Hk. cbn [nth] in Hk.
  assert (X : sum_list ks <= sum_list (map (fun i => nth i l 0) (concat (map (map fst) L)))); [|cbn in Hk; lia]. apply IH; [cbn in EL; lia|]. intros c s' Hs'. exact (HT (S c) s' Hs').
Qed.
