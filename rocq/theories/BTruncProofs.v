(** Lemmas: the truncation of block decompositions. *)
From Verif Require Import Base Quantity QuantityProofs FlatMap SpecFlatMap FlatMapProofs Ring Index SpecIndex IndexProofs Dense BTensor SpecBTensor BTensorProofs BSvd Truncate SpecTruncate TruncateProofs BTrunc SpecBTrunc.
From Coq Require Import Permutation Sorting.Sorted.
Set Implicit Arguments.

  Lemma upd_app A (l : list A) x r y : upd (l ++ x :: r) (length l) y = l ++ y :: r.
  Proof.
    unfold upd. replace (firstn (length l) (l ++ x :: r)) with l; [|rewrite <- (Nat.add_0_r (length l)), firstn_app_2; cbn; rewrite app_nil_r; auto].
    f_equal. f_equal. replace (S (length l)) with (length (l ++ [x])) by (rewrite app_length; cbn; lia). change (x :: r) with ([x] ++ r). rewrite app_assoc.
    rewrite skipn_app, skipn_all, Nat.sub_diag. reflexivity.
  Qed.
  Lemma omapM_ok A B (f : A -> option (result B)) g l : (forall a, In a l -> f a = Some (Ok (g a))) -> omapM f l = Some (Ok (map g l)).
  Proof. induction l as [|a l IH]; intros H; [reflexivity|]. cbn [omapM map]. rewrite H by (left; auto). cbn [obind]. rewrite IH by (intros; apply H; right; auto). reflexivity. Qed.
  Lemma upd_len A (l : list A) n a : n < length l -> length (upd l n a) = length l.
  Proof. intros H. unfold upd. rewrite app_length, firstn_length. cbn [length]. rewrite skipn_length. lia. Qed.
  Lemma nth_upd (l : list nat) n a k : n < length l -> nth k (upd l n a) 0 = if k =? n then a else nth k l 0.
  Proof.
    intros H. unfold upd. destruct (Nat.eqb_spec k n) as [->|E].
    - rewrite app_nth2; rewrite firstn_length, Nat.min_l by lia; auto. rewrite Nat.sub_diag. reflexivity.
    - destruct (Nat.lt_ge_cases k n) as [H1|H1].
      + rewrite app_nth1 by (rewrite firstn_length; lia). rewrite <- (firstn_skipn n l) at 2. rewrite app_nth1 by (rewrite firstn_length; lia). auto.
      + rewrite app_nth2; rewrite firstn_length, Nat.min_l by lia; try lia. replace (k - n) with (S (k - S n)) by lia. cbn [nth].
        rewrite <- (firstn_skipn (S n) l) at 2. rewrite app_nth2; rewrite firstn_length, Nat.min_l by lia; try lia.
  Qed.
  Lemma nth_map_seq (f : nat -> nat) n k : k < n -> nth k (map f (seq 0 n)) 0 = f k.
  Proof. intros H. rewrite nth_indep with (d' := f 0) by (rewrite map_length, seq_length; auto). rewrite map_nth, seq_nth by auto. reflexivity. Qed.
  Lemma upd_tail A (l : list A) m b n : m <= length l -> b < length l - m -> upd l (m + b) n = firstn m l ++ upd (skipn m l) b n.
  Proof.
    intros H1 H2. unfold upd. rewrite app_assoc. f_equal.
    - transitivity (firstn (m + b) (firstn m l ++ skipn m l)); [rewrite firstn_skipn; auto|]. assert (Em : length (firstn m l) = m) by (rewrite firstn_length; lia).
      rewrite firstn_app, Em. rewrite firstn_all2 by lia. replace (m + b - m) with b by lia. auto.
    - f_equal. rewrite skipn_skipn'. f_equal. lia.
  Qed.

Lemma nodup_l A (l m : list A) : NoDup (l ++ m) -> NoDup l.
Proof. induction l as [|a l IH]; intros H; [constructor|]. inversion H; subst. constructor; auto. intros K. apply H2, in_app_iff. auto. Qed.
Section L.
  Context {R : ring}.
  Notation entry := (list nat * dense R)%type.
  Implicit Types l junk keep rest : list entry.

  (** * Removal of the blocks of a section *)
  Definition rot l : list entry := match l with [] => [] | a :: r => r ++ [a] end.
  (** What the loop keeps of [rest], with [junk] the blocks put aside. *)
  Fixpoint rm (b : nat) junk (l : list entry) : list entry :=
    match l with
    | [] => []
    | x :: r => if back x =? b
                then match r with [] => [hd x junk] | y :: r' => y :: rm b (rot (junk ++ [x])) r' end
                else x :: rm b (rot junk) r
    end.
  Lemma rot_length l : length (rot l) = length l.
  Proof. destruct l; cbn; auto. rewrite app_length. cbn. lia. Qed.
  Lemma rot_perm l : Permutation (rot l) l.
  Proof. destruct l; cbn; auto. symmetry. apply Permutation_cons_append. Qed.

  Lemma swap_mid l a j x r : swap_at (length l + S (length j)) (length l) (l ++ a :: j ++ x :: r) = l ++ x :: j ++ a :: r.
  Proof.
    unfold swap_at. rewrite !nth_error_app2 by lia. rewrite Nat.sub_diag. replace (length l + S (length j) - length l) with (S (length j)) by lia.
    cbn [nth_error]. rewrite nth_error_app2, Nat.sub_diag by lia. cbn [nth_error].
    replace (l ++ a :: j ++ x :: r) with ((l ++ a :: j) ++ x :: r) by (rewrite <- app_assoc; reflexivity).
    replace (length l + S (length j)) with (length (l ++ a :: j)) by (rewrite app_length; cbn; lia). rewrite upd_app, <- app_assoc. cbn [app]. apply upd_app.
  Qed.
  Lemma remove_loop_rm b : forall fuel keep junk rest, length rest < fuel ->
    exists src dest l', remove_loop fuel b (length keep) (length keep + length junk) (keep ++ junk ++ rest) = Some (src, dest, l') /\
      firstn (length l' - (dest - src)) l' = keep ++ rm b junk rest.
  Proof.
    induction fuel as [|f IH]; intros keep junk rest Hf; [lia|]. cbn [remove_loop].
    replace (nth_error (keep ++ junk ++ rest) (length keep + length junk)) with (nth_error rest 0).
    2: { rewrite nth_error_app2 by lia. rewrite nth_error_app2 by lia. f_equal. lia. }
    destruct rest as [|x r]; cbn [nth_error].
    { eexists _, _, _. split; [reflexivity|]. rewrite !app_length. cbn [length rm]. rewrite !app_nil_r. replace (_ - _) with (length keep + 0) by lia.
      rewrite firstn_app_2. apply app_nil_r. }
    cbn [rm]. destruct (back x =? b) eqn:E; cbn [b2n].
    - destruct r as [|y r].
      + assert (He : (length keep + length junk + 1 =? length (keep ++ junk ++ [x])) = true) by (apply Nat.eqb_eq; rewrite !app_length; cbn; lia).
        rewrite He. cbn [negb andb b2n]. rewrite andb_false_r, He. cbn [negb b2n]. rewrite Nat.add_0_r.
        destruct junk as [|j0 js]; cbn [length hd].
        * destruct (IH (keep ++ [x]) [] []) as (s & d & l' & E1 & E2); [cbn in *; lia|]. rewrite app_length in E1. cbn [length] in E1. rewrite !app_nil_r in E1. cbn [app].
          replace (length keep + 0 + 1) with (length keep + 1 + 0) by lia. replace (S (length keep)) with (length keep + 1) by lia.
          exists s, d, l'. split; auto. rewrite E2. cbn [rm]. apply app_nil_r.
        * destruct (IH (keep ++ [j0]) (js ++ [x]) []) as (s & d & l' & E1 & E2); [cbn in *; lia|]. rewrite !app_length in E1. cbn [length] in E1. rewrite app_nil_r, <- app_assoc in E1.
          cbn [app] in *. replace (length keep + S (length js) + 1) with (length keep + 1 + (length js + 1)) by lia. replace (S (length keep)) with (length keep + 1) by lia.
          exists s, d, l'. split; auto. rewrite E2. cbn [rm]. apply app_nil_r.
      + replace (length keep + length junk + 1 =? length keep) with false by (symmetry; apply Nat.eqb_neq; lia).
        replace (length keep + length junk + 1 =? length (keep ++ junk ++ x :: y :: r)) with false by (symmetry; apply Nat.eqb_neq; rewrite !app_length; cbn; lia).
        cbn [negb andb b2n].
        assert (HS : exists j0 js, junk ++ [x] = j0 :: js) by (destruct junk; cbn; eauto). destruct HS as (j0 & js & Ej).
        assert (El : length junk + 1 = S (length js)) by (apply (f_equal (@length _)) in Ej; rewrite app_length in Ej; cbn in Ej; lia).
        replace (keep ++ junk ++ x :: y :: r) with (keep ++ j0 :: js ++ y :: r).
        2: { f_equal. change (x :: y :: r) with ([x] ++ y :: r). rewrite app_assoc, Ej. reflexivity. }
        replace (length keep + length junk + 1) with (length keep + S (length js)) by lia. rewrite swap_mid.
        replace (length keep + S (length js) =? length (keep ++ y :: js ++ j0 :: r)) with false by (symmetry; apply Nat.eqb_neq; rewrite !app_length; cbn; rewrite app_length; cbn; lia).
        cbn [negb b2n]. rewrite Ej. cbn [rot].
        destruct (IH (keep ++ [y]) (js ++ [j0]) r) as (s & d & l' & E1 & E2); [cbn in *; lia|]. rewrite !app_length in E1. cbn [length] in E1.
        rewrite <- !app_assoc in E1. cbn [app] in E1. replace (length keep + S (length js) + 1) with (length keep + 1 + (length js + 1)) by lia. replace (S (length keep)) with (length keep + 1) by lia.
        exists s, d, l'. split; auto. rewrite E2, <- app_assoc. reflexivity.
    - rewrite Nat.add_0_r. replace (length keep + length junk =? length (keep ++ junk ++ x :: r)) with false by (symmetry; apply Nat.eqb_neq; rewrite !app_length; cbn; lia).
      cbn [negb]. rewrite andb_true_r. destruct junk as [|j0 js]; cbn [length rot].
      + rewrite Nat.add_0_r, Nat.eqb_refl. cbn [negb app]. replace (length keep =? length (keep ++ x :: r)) with false by (symmetry; apply Nat.eqb_neq; rewrite !app_length; cbn; lia). cbn [negb b2n].
        destruct (IH (keep ++ [x]) [] r) as (s & d & l' & E1 & E2); [cbn in *; lia|]. rewrite app_length in E1. cbn [length] in E1. rewrite <- app_assoc in E1. cbn [app] in E1.
        replace (length keep + 1 + 0) with (length keep + 1) in E1 by lia. replace (S (length keep)) with (length keep + 1) by lia. exists s, d, l'. split; auto. rewrite E2, <- app_assoc. reflexivity.
      + replace (length keep + S (length js) =? length keep) with false by (symmetry; apply Nat.eqb_neq; lia). cbn [negb app]. rewrite swap_mid.
        replace (length keep + S (length js) =? length (keep ++ x :: js ++ j0 :: r)) with false by (symmetry; apply Nat.eqb_neq; rewrite !app_length; cbn; rewrite app_length; cbn; lia). cbn [negb b2n].
        destruct (IH (keep ++ [x]) (js ++ [j0]) r) as (s & d & l' & E1 & E2); [cbn in *; lia|]. rewrite !app_length in E1. cbn [length] in E1.
        rewrite <- !app_assoc in E1. cbn [app] in E1. replace (length keep + S (length js) + 1) with (length keep + 1 + (length js + 1)) by lia. replace (S (length keep)) with (length keep + 1) by lia.
        exists s, d, l'. split; auto. rewrite E2, <- app_assoc. reflexivity.
  Qed.
  (** Only blocks of the section are lost. *)
  Lemma rm_perm b : forall n l junk, length l <= n -> (forall e, In e junk -> back e = b) ->
    exists lost, Permutation (rm b junk l ++ lost) (junk ++ l) /\ forall e, In e lost -> back e = b.
  Proof.
    induction n as [|n IH]; intros l junk Hl Hj.
    { destruct l; [|cbn in Hl; lia]. exists junk. split; auto. cbn. rewrite app_nil_r. auto. }
    destruct l as [|x r]; [exists junk; split; auto; cbn; rewrite app_nil_r; auto|]. cbn [rm]. destruct (back x =? b) eqn:E.
    - apply Nat.eqb_eq in E. destruct r as [|y r].
      + destruct junk as [|j0 js]; cbn [hd].
        * exists []. split; [reflexivity|intros e []].
        * exists (js ++ [x]). split; [reflexivity|]. intros e He. apply in_app_iff in He as [He|[<-|[]]]; auto. apply Hj. right; auto.
      + destruct (IH r (rot (junk ++ [x]))) as (lost & P & H).
        { cbn in Hl; lia. }
        { intros e He. apply (Permutation_in e (rot_perm (junk ++ [x]))) in He. apply in_app_iff in He as [He|[<-|[]]]; auto. }
        exists lost. split; auto. cbn [app]. rewrite P. rewrite rot_perm. rewrite <- app_assoc. cbn [app].
        rewrite Permutation_middle. apply Permutation_app_head. constructor.
    - destruct (IH r (rot junk)) as (lost & P & H).
      { cbn in Hl; lia. }
      { intros e He. apply (Permutation_in e (rot_perm junk)) in He. auto. }
      exists lost. split; auto. cbn [app]. rewrite P, rot_perm. apply Permutation_middle.
  Qed.
  (** A subsequence. *)
  Inductive subl : list entry -> list entry -> Prop :=
  | subl_nil : subl [] []
  | subl_skip x l m : subl l m -> subl l (x :: m)
  | subl_keep x l m : subl l m -> subl (x :: l) (x :: m).
  Lemma subl_refl l : subl l l. Proof. induction l; [apply subl_nil|apply subl_keep; auto]. Qed.
  Lemma subl_in l m e : subl l m -> In e l -> In e m.
  Proof. induction 1; intros He; [destruct He|right; auto|]. destruct He as [<-|He]; [left; auto|right; auto]. Qed.
  Lemma last_app_in (l : list entry) d : l <> [] -> In (last l d) l.
  Proof. induction l as [|a [|b r] IH]; intros H; [congruence|left; auto|]. right. apply IH. discriminate. Qed.
  (** Order is kept, as is the last block, when the last block is of another section or nothing was put aside. *)
  Lemma rm_sub b d : forall n l junk, length l <= n -> (l <> [] -> back (last l d) <> b) -> subl (rm b junk l) l /\ last (rm b junk l) d = last l d.
  Proof.
    induction n as [|n IH]; intros l junk Hl Hb.
    { destruct l; [|cbn in Hl; lia]. cbn. split; [constructor|auto]. }
    destruct l as [|x r]; [cbn; split; [constructor|auto]|]. cbn [rm]. destruct (back x =? b) eqn:E.
    - apply Nat.eqb_eq in E. destruct r as [|y r]; [exfalso; apply Hb; [discriminate|exact E]|].
      destruct (IH r (rot (junk ++ [x]))) as [S1 S2].
      { cbn in Hl; lia. }
      { intros Hr. specialize (Hb ltac:(discriminate)). destruct r; [congruence|exact Hb]. }
      split; [apply subl_skip, subl_keep; exact S1|]. destruct r as [|z r]; [reflexivity|].
      change (last (x :: y :: z :: r) d) with (last (z :: r) d). rewrite <- S2. remember (rm b (rot (junk ++ [x])) (z :: r)) as q. destruct q as [|q0 q]; [|reflexivity].
      exfalso. cbn [rm] in Heqq. destruct (back z =? b); [destruct r; discriminate|discriminate].
    - apply Nat.eqb_neq in E. destruct (IH r (rot junk)) as [S1 S2].
      { cbn in Hl; lia. }
      { intros Hr. specialize (Hb ltac:(discriminate)). destruct r; [congruence|exact Hb]. }
      split; [apply subl_keep; exact S1|]. destruct r as [|z r]; [reflexivity|].
      change (last (x :: z :: r) d) with (last (z :: r) d). rewrite <- S2. remember (rm b (rot junk) (z :: r)) as q. destruct q as [|q0 q]; [|reflexivity].
      exfalso. cbn [rm] in Heqq. destruct (back z =? b); [destruct r; discriminate|discriminate].
  Qed.
  (** A single block of the section at the end stays. *)
  Lemma rm_none b : forall l, (forall e, In e l -> back e <> b) -> forall x, rm b [] (l ++ [x]) = l ++ [x].
  Proof.
    induction l as [|y l IH]; intros H x.
    - cbn. destruct (back x =? b); reflexivity.
    - cbn [app rm]. destruct (Nat.eqb_spec (back y) b) as [E|E]; [exfalso; apply (H y); [left; auto|auto]|]. cbn [rot]. rewrite IH; auto. intros; apply H; right; auto.
  Qed.
End L.

(** * The loop as a sequence of independent steps *)
Section Steps.
  Context {G : abgroup} {R : ring}.
  Notation t := (btensor G R).
  Notation entry := (list nat * dense R)%type.
  Variable gtb : R -> R -> bool.
  Variable v : R.
  Definition trim1 (b n : nat) (e : entry) : entry := if back e =? b then (fst e, first_n n (snd e)) else e.
  Definition unit_step (nd : nat) (U : t) (s : nat * nat) : t :=
    if snd s =? 0 then with_blocks U (rm (fst s) [] (b_blocks U))
    else with_blocks (with_sizes U (upd (b_ss U) (length (b_ss U) + fst s - nd) (snd s))) (map (trim1 (fst s) (snd s)) (b_blocks U)).
  Definition ss_step (ss : list nat) (s : nat * nat) : list nat := if snd s =? 0 then ss else upd ss (fst s) (snd s).
  Definition step_of (e : entry) : nat * nat := (back e, lower_bound_impl2 gtb (values (snd e)) v).
  Definition d_end (e : entry) : list entry := let n := snd (step_of e) in if n =? 0 then [] else [(fst e, first_n n (snd e))].

  Lemma remove_unit_eq b (U : t) : remove_unit_blocks b U = Some (Ok (with_blocks U (rm b [] (b_blocks U)))).
  Proof.
    unfold remove_unit_blocks. destruct (@remove_loop_rm R b (S (length (b_blocks U))) [] [] (b_blocks U)) as (s & d & l & E1 & E2); [lia|].
    cbn [app length plus] in E1. rewrite E1, E2. reflexivity.
  Qed.
  Lemma unit_step_len nd (U : t) s : nd <= length (b_ss U) -> fst s < nd -> length (b_ss (unit_step nd U s)) = length (b_ss U).
  Proof. intros H1 H2. unfold unit_step. destruct (snd s =? 0); [reflexivity|]. cbn [with_blocks with_sizes b_ss]. apply upd_len. lia. Qed.

  Lemma trunc_loop_eq : forall pre tl (d : t) (us : list t), b_blocks d = pre ++ tl -> (forall e, In e pre -> back e < length (b_ss d)) ->
    (forall U, In U us -> length (b_ss d) <= length (b_ss U)) ->
    trunc_loop gtb v (length pre) d us = Some (Ok (
      @mkB G R (b_rule d) (b_rank d) (b_sbd d) (fold_left ss_step (map step_of (rev pre)) (b_ss d)) (b_cv d) (flat_map d_end pre ++ tl),
      map (fun U => fold_left (unit_step (length (b_ss d))) (map step_of (rev pre)) U) us)).
  Proof.
    induction pre as [|e pre IH] using rev_ind; intros tl d us Eb Hb Hu.
    { cbn. rewrite map_id. rewrite <- (app_nil_l tl). cbn. destruct d; cbn in *. subst. reflexivity. }
    rewrite app_length. cbn [length]. rewrite Nat.add_1_r. cbn [trunc_loop]. rewrite Eb, <- app_assoc. cbn [app].
    rewrite nth_error_app2, Nat.sub_diag by lia. cbn [nth_error]. destruct e as [k x]. rewrite rev_app_distr. cbn [rev app map fold_left].
    assert (Hk : last k 0 < length (b_ss d)) by (apply (Hb (k, x)); apply in_app_iff; right; left; auto).
    rewrite flat_map_app. cbn [flat_map]. rewrite app_nil_r. set (n := lower_bound_impl2 gtb (values x) v).
    assert (Es : step_of (k, x) = (last k 0, n)) by reflexivity. assert (Ed : d_end (k, x) = if n =? 0 then [] else [(k, first_n n x)]) by reflexivity. rewrite Es, Ed.
    assert (Hb' : forall e, In e pre -> back e < length (b_ss d)) by (intros; apply Hb, in_app_iff; auto).
    destruct (n =? 0) eqn:En.
    - rewrite (omapM_ok _ (fun U => unit_step (length (b_ss d)) U (last k 0, n))).
      2: { intros U _. rewrite remove_unit_eq. unfold unit_step. cbn [fst snd]. rewrite En. reflexivity. }
      cbn [obind]. rewrite firstn_app, firstn_all, Nat.sub_diag. cbn [firstn]. rewrite app_nil_r. rewrite skipn_app, skipn_all2 by lia.
      replace (S (length pre) - length pre) with 1 by lia. cbn [skipn app].
      rewrite (IH tl (with_blocks d (pre ++ tl)) _ eq_refl); cbn [with_blocks b_ss b_rule b_rank b_sbd b_cv]; auto.
      2: { intros U HU. apply in_map_iff in HU as (U0 & <- & HU). rewrite unit_step_len; auto. }
      f_equal. f_equal. f_equal.
      + f_equal; [f_equal; unfold ss_step; cbn [fst snd]; rewrite En; reflexivity|rewrite app_nil_r; reflexivity].
      + rewrite map_map. reflexivity.
    - cbn [with_blocks b_ss]. rewrite (proj2 (Nat.ltb_lt _ _) Hk). cbn [with_sizes b_ss]. rewrite upd_len by auto.
      rewrite (omapM_ok _ (fun U => unit_step (length (b_ss d)) U (last k 0, n))).
      2: { intros U HU. unfold trunc_unit_block, unit_step. cbn [fst snd]. rewrite En. specialize (Hu U HU).
           rewrite (proj2 (Nat.leb_le _ _)) by lia. rewrite (proj2 (Nat.ltb_lt _ _)) by lia. cbn [andb]. reflexivity. }
      cbn [obind]. rewrite upd_app.
      rewrite (IH ((k, first_n n x) :: tl)); cbn [with_blocks with_sizes b_ss b_rule b_rank b_sbd b_cv b_blocks]; auto.
      + f_equal. f_equal. f_equal.
        * f_equal; [f_equal; unfold ss_step; cbn [fst snd]; rewrite En; reflexivity|rewrite <- app_assoc; reflexivity].
        * rewrite map_map, upd_len by auto. reflexivity.
      + rewrite upd_len by auto. auto.
      + intros U HU. rewrite upd_len by auto. apply in_map_iff in HU as (U0 & <- & HU). rewrite unit_step_len; auto.
  Qed.
End Steps.

(** * The result of all steps *)
Section Fold.
  Context {G : abgroup} {R : ring}.
  Notation t := (btensor G R).
  Notation entry := (list nat * dense R)%type.
  Definition look (steps : list (nat * nat)) (b : nat) : option nat := assoc Nat.eqb b steps.
  Definition trim (steps : list (nat * nat)) (e : entry) : entry :=
    match look steps (back e) with Some (S n) => (fst e, first_n (S n) (snd e)) | _ => e end.
  Lemma look_app steps b n c : look (steps ++ [(b, n)]) c = match look steps c with Some m => Some m | None => if b =? c then Some n else None end.
  Proof. unfold look. induction steps as [|s r IH]; cbn; auto. destruct (fst s =? c); auto. Qed.
  Lemma look_None steps b : ~ In b (map fst steps) -> look steps b = None.
  Proof. unfold look. induction steps as [|s r IH]; cbn; auto. intros H. destruct (Nat.eqb_spec (fst s) b); [tauto|]. apply IH. tauto. Qed.
  Lemma look_In steps b n : NoDup (map fst steps) -> In (b, n) steps -> look steps b = Some n.
  Proof.
    unfold look. induction steps as [|s r IH]; cbn; intros HN H; [destruct H|]. inversion HN as [|? ? H1 H2]; subst. destruct H as [->|H].
    - cbn. rewrite Nat.eqb_refl. auto.
    - destruct (Nat.eqb_spec (fst s) b) as [E|E]; auto. exfalso. apply H1. rewrite E. apply in_map_iff. exists (b, n). auto.
  Qed.
  Lemma look_Some steps b n : look steps b = Some n -> In (b, n) steps.
  Proof.
    unfold look. induction steps as [|[c m] r IH]; cbn; [discriminate|]. destruct (Nat.eqb_spec c b); [intros [= <-]; left; congruence|right; auto].
  Qed.
  Lemma trim_key steps e : fst (trim steps e) = fst e. Proof. unfold trim. destruct (look steps (back e)) as [[|n]|]; auto. Qed.
  Lemma trim_back steps e : back (trim steps e) = back e. Proof. unfold back. rewrite trim_key. auto. Qed.
  Lemma trim1_key b n (e : entry) : fst (trim1 b n e) = fst e. Proof. unfold trim1. destruct (back e =? b); auto. Qed.

  Lemma ss_fold steps l : (forall s, In s steps -> fst s < length l) -> NoDup (map fst steps) ->
    fold_left ss_step steps l = map (fun b => match look steps b with Some (S n) => S n | _ => nth b l 0 end) (seq 0 (length l)).
  Proof.
    induction steps as [|[b n] r IH] using rev_ind; intros H HN.
    - cbn. symmetry. apply nth_ext with (d := 0) (d' := 0); [rewrite map_length, seq_length; auto|]. intros k Hk. rewrite map_length, seq_length in Hk.
      rewrite nth_map_seq by auto. reflexivity.
    - rewrite map_app in HN. apply NoDup_remove in HN as [HN1 HN2]. rewrite app_nil_r in *. cbn [map fst] in HN2.
      rewrite fold_left_app, IH by (auto; intros; apply H, in_app_iff; auto). cbn [fold_left].
      assert (Hb : b < length l) by (apply (H (b, n)), in_app_iff; right; left; auto).
      set (L := map _ _). assert (HL : length L = length l) by (unfold L; rewrite map_length, seq_length; auto).
      assert (EL : forall k, k < length l -> nth k L 0 = match look r k with Some (S m) => S m | _ => nth k l 0 end).
      { intros k Hk. unfold L. rewrite nth_map_seq by auto. reflexivity. }
      assert (E2 : length (ss_step L (b, n)) = length l) by (unfold ss_step; cbn [fst snd]; destruct (n =? 0); auto; rewrite upd_len; lia).
      apply nth_ext with (d := 0) (d' := 0); [rewrite map_length, seq_length; auto|]. rewrite E2. intros k Hk.
      rewrite nth_map_seq by auto. rewrite look_app.
      unfold ss_step. cbn [fst snd]. destruct (Nat.eqb_spec n 0) as [->|En].
      + rewrite EL by auto. destruct (look r k) as [[|m]|]; auto. destruct (b =? k); auto.
      + rewrite nth_upd by lia. rewrite EL by auto. rewrite (Nat.eqb_sym b k). destruct (Nat.eqb_spec k b) as [->|Ek].
        * rewrite (look_None _ _ HN2). destruct n; [lia|auto].
        * destruct (look r k) as [[|m]|]; auto.
  Qed.

  Lemma unit_fold nd steps (U : t) : nd <= length (b_ss U) -> (forall s, In s steps -> fst s < nd) -> NoDup (map fst steps) -> NoDup (map fst (b_blocks U)) ->
    let U' := fold_left (unit_step nd) steps U in
    b_rule U' = b_rule U /\ b_rank U' = b_rank U /\ b_sbd U' = b_sbd U /\ b_cv U' = b_cv U /\
    b_ss U' = firstn (length (b_ss U) - nd) (b_ss U) ++ fold_left ss_step steps (skipn (length (b_ss U) - nd) (b_ss U)) /\
    (forall e', In e' (b_blocks U') -> exists e, In e (b_blocks U) /\ e' = trim steps e) /\
    (forall e, In e (b_blocks U) -> look steps (back e) <> Some 0 -> In (trim steps e) (b_blocks U')) /\
    NoDup (map fst (b_blocks U')).
  Proof.
    intros Hn Hs HN HK. cbn zeta. induction steps as [|[b n] r IH] using rev_ind.
    { cbn [fold_left]. repeat (split; [auto; fail|]). split; [symmetry; apply firstn_skipn|]. split; [intros e He; exists e; auto|]. auto. }
    rewrite map_app in HN. apply NoDup_remove in HN as [HN1 HN2]. rewrite app_nil_r in *. cbn [map fst] in HN2.
    destruct IH as (A1 & A2 & A3 & A4 & A5 & A6 & A7 & A8); auto; [intros; apply Hs, in_app_iff; auto|].
    rewrite !fold_left_app. cbn [fold_left]. set (U1 := fold_left (unit_step nd) r U) in *.
    assert (Hb : b < nd) by (apply (Hs (b, n)), in_app_iff; right; left; auto).
    assert (LL : length (fold_left ss_step r (skipn (length (b_ss U) - nd) (b_ss U))) = nd).
    { rewrite ss_fold; auto. - rewrite map_length, seq_length, skipn_length. lia. - intros s Hs'. rewrite skipn_length. specialize (Hs s ltac:(apply in_app_iff; auto)). lia. }
    assert (L1 : length (b_ss U1) = length (b_ss U)) by (rewrite A5, app_length, LL, firstn_length; lia).
    assert (E0 : forall e : entry, look r (back e) = None -> trim r e = e) by (intros e He; unfold trim; rewrite He; auto).
    pose proof (@look_None r b HN2) as Hlb. unfold unit_step. cbn [fst snd]. destruct (Nat.eqb_spec n 0) as [->|En].
    - cbn [with_blocks b_rule b_rank b_sbd b_ss b_cv b_blocks]. repeat (split; [auto; fail|]).
      destruct (@rm_perm R b (length (b_blocks U1)) (b_blocks U1) [] (le_n _)) as (lost & P & Hl); [intros e []|]. cbn [app] in P.
      assert (ET : forall e : entry, trim (r ++ [(b, 0)]) e = trim r e).
      { intros e. unfold trim. rewrite look_app. destruct (look r (back e)) as [[|m]|]; auto. destruct (b =? back e); auto. }
      split; [|split].
      + intros e' He'. destruct (A6 e') as (e & He & ->); [apply (Permutation_in _ P), in_app_iff; auto|]. exists e. rewrite ET. auto.
      + intros e He Hk. rewrite ET. rewrite look_app in Hk. specialize (A7 e He).
        assert (Hx : In (trim r e) (b_blocks U1)) by (apply A7; destruct (look r (back e)); congruence).
        apply (Permutation_in _ (Permutation_sym P)) in Hx. apply in_app_iff in Hx as [Hx|Hx]; auto. exfalso. apply Hl in Hx. rewrite trim_back in Hx. rewrite Hx, Hlb, Nat.eqb_refl in Hk. congruence.
      + apply (Permutation_NoDup (Permutation_map fst (Permutation_sym P))) in A8. rewrite map_app in A8. apply nodup_l in A8. auto.
    - cbn [with_blocks with_sizes b_rule b_rank b_sbd b_ss b_cv b_blocks]. repeat (split; [auto; fail|]). split.
      { rewrite L1, A5. unfold ss_step at 2. cbn [fst snd]. destruct (Nat.eqb_spec n 0) as [|_]; [lia|].
        replace (length (b_ss U) + b - nd) with (length (b_ss U) - nd + b) by lia. rewrite upd_tail.
        - assert (Em : length (firstn (length (b_ss U) - nd) (b_ss U)) = length (b_ss U) - nd) by (rewrite firstn_length; lia).
          rewrite firstn_app, skipn_app, Em, Nat.sub_diag. cbn [firstn skipn]. rewrite app_nil_r. rewrite firstn_all2 by lia. rewrite (@skipn_all2 _ (length (b_ss U) - nd)) by lia. reflexivity.
        - rewrite <- A5, L1. lia.
        - rewrite <- A5, L1. lia. }
      assert (ET : forall e : entry, trim (r ++ [(b, n)]) e = trim1 b n (trim r e)).
      { intros e. unfold trim1. rewrite trim_back. unfold trim. rewrite look_app. destruct (Nat.eqb_spec (back e) b) as [E|E].
        - rewrite E, Hlb, Nat.eqb_refl. destruct n; [lia|auto].
        - destruct (look r (back e)) as [[|m]|]; auto. destruct (Nat.eqb_spec b (back e)); [congruence|auto]. }
      split; [|split].
      + intros e' He'. apply in_map_iff in He' as (e1 & <- & He1). destruct (A6 e1 He1) as (e & He & ->). exists e. auto.
      + intros e He Hk. rewrite ET. apply in_map. apply A7; auto. rewrite look_app in Hk. intros E. rewrite E in Hk. congruence.
      + rewrite map_map, (map_ext _ fst); auto. intros. apply trim1_key.
  Qed.
End Fold.
