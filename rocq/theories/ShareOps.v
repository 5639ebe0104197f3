(** The other operations, and programs. *)
From Verif Require Import Base Quantity FlatMap SpecFlatMap FlatMapProofs FlatMapThms Ring Index SpecIndex Dense IndexProofs BTensor SpecBTensor BTensorProofs LegsProofs SpecArith BTensorArith ArithProofs ArithThms Share SpecShare ShareProofs ShareThms.
From Coq Require Import Permutation.
Set Implicit Arguments.

Section T.
  Context {G : abgroup} {R : ring}.
  Notation key := (list nat).
  Notation heap := (@heap R).
  Notation ten := (@ten G R).
  Notation st := (@st G R).
  Notation op := (@op G R).
  Notation KO := key_order_idx.
  Implicit Types (h : heap) (s : st).

  Lemma nth_upd A (l : list A) a z n : a < length l -> nth_error (upd l a z) n = if n =? a then Some z else nth_error l n.
  Proof.
    intros L. unfold upd. destruct (Nat.eqb_spec n a) as [->|D].
    - rewrite nth_error_app2; rewrite firstn_length_le by lia; [|lia]. rewrite Nat.sub_diag. reflexivity.
    - destruct (Nat.lt_ge_cases n a) as [Q|Q].
      + rewrite nth_error_app1 by (rewrite firstn_length_le; lia). apply nth_error_firstn_lt || (rewrite <- (firstn_skipn a l) at 2; rewrite nth_error_app1 by (rewrite firstn_length_le; lia); reflexivity).
      + rewrite nth_error_app2 by (rewrite firstn_length_le; lia). rewrite firstn_length_le by lia. destruct (n - a) as [|m] eqn:E; [lia|]. cbn [nth_error].
        rewrite <- (firstn_skipn (S a) l) at 2. rewrite nth_error_app2; rewrite firstn_length_le by lia; [|lia]. f_equal. lia.
  Qed.
  Lemma some_lt A (l : list A) a x : nth_error l a = Some x -> a < length l.
  Proof. intros E. apply nth_error_Some. congruence. Qed.
  Lemma rnth_error A (l : list A) a x : rnth l a = Ok x -> nth_error l a = Some x.
  Proof. unfold rnth. destruct (nth_error l a); congruence. Qed.
  Lemma good_upd h h' (vs : list ten) a z : ext h h' -> a < length vs -> (forall n w, nth_error vs n = Some w -> good_ten h w) -> good_ten h' z -> forall n w, nth_error (upd vs a z) n = Some w -> good_ten h' w.
  Proof. intros X L H Z n w. rewrite nth_upd by exact L. destruct (n =? a); [intros [= <-]; exact Z|]. intros Hn. apply good_ext with h; [exact X|apply (H n w Hn)]. Qed.
  Lemma good_empty h (m : btensor G R) : good_ten h (mkT m []).
  Proof. split; [constructor|]. split; [intros ? ? []|intros ? ? ? ? []]. Qed.
  Lemma checks h (x y : ten) alpha T : bt_add (value h x) (value h y) alpha = Ok T -> add_tensor_check (t_meta x) (t_meta y) = Ok tt.
  Proof. unfold bt_add. change (add_tensor_check (value h x) (value h y)) with (add_tensor_check (t_meta x) (t_meta y)). destruct (add_tensor_check (t_meta x) (t_meta y)) as [[]| |]; cbn; congruence. Qed.
  Lemma add_is h (x y : ten) alpha : sorted lexb (t_blk x) -> sorted lexb (t_blk y) ->
    match add_tensor_check (t_meta x) (t_meta y) with Ok _ => exists T, bt_add (value h x) (value h y) alpha = Ok T | Throw e => bt_add (value h x) (value h y) alpha = Throw e | UB => bt_add (value h x) (value h y) alpha = UB end.
  Proof.
    intros Sx Sy. destruct (@plan_ok R _ _ Sx Sy) as (p & _ & _ & _ & _ & Vp). unfold bt_add. change (add_tensor_check (value h x) (value h y)) with (add_tensor_check (t_meta x) (t_meta y)).
    change (b_blocks (value h x)) with (onv (read h) (t_blk x)). change (b_blocks (value h y)) with (onv (read h) (t_blk y)). rewrite Vp. destruct (add_tensor_check (t_meta x) (t_meta y)); cbn; eauto.
  Qed.
  Lemma unchanged_of s s' n (w : ten) : good s -> nth_error (s_vars s) n = Some w -> (forall k i, i < length (h_win (s_heap s)) -> In (k, i) (t_blk w) -> deq (read (s_heap s) i) (read (s_heap s') i)) -> unchanged s s' w.
  Proof. intros [_ HT] Hw F. apply value_same. intros k i I. apply (F k i); [|exact I]. destruct (HT n w Hw) as (_ & L & _). exact (L k i I). Qed.

  (** [a.add_(b, alpha)] *)
  Lemma addin_ok s a b (x y : ten) alpha T : good s -> nth_error (s_vars s) a = Some x -> nth_error (s_vars s) b = Some y -> cross (s_heap s) x y ->
    bt_add (value (s_heap s) x) (value (s_heap s) y) alpha = Ok T ->
    exists s' z, step s (OAddIn a b alpha) = Ok s' /\ good s' /\ s_vars s' = upd (s_vars s) a z /\ same T (value (s_heap s') z) /\
      (forall k i j, In (k, i) (t_blk x) -> In (k, j) (t_blk y) -> In (k, i) (t_blk z) /\ deq (d_axpy alpha (read (s_heap s) i) (read (s_heap s) j)) (read (s_heap s') i)) /\
      (forall i, i < length (h_win (s_heap s)) -> (forall k i' j, In (k, i') (t_blk x) -> In (k, j) (t_blk y) -> mem_at (s_heap s) i' <> mem_at (s_heap s) i) -> deq (read (s_heap s) i) (read (s_heap s') i)).
  Proof.
    intros HG Hx Hy C ET. pose proof HG as [H HT]. destruct (@core G R alpha (fun _ _ => true) _ x y T H (HT a x Hx) (HT b y Hy) C ET) as (p & h' & out & Ep & Er & H' & X & Gz & Sz & Fp & Cm & _ & F).
    cbn [step]. rewrite (rnth_some _ _ Hx), (rnth_some _ _ Hy). cbn [rbind]. rewrite (checks _ _ _ _ ET). cbn [rbind]. rewrite Ep. cbn [rbind]. rewrite Er.
    eexists _, (mkT (t_meta x) out). split; [reflexivity|]. split; [split; [exact H'|apply good_upd with (s_heap s); auto; exact (some_lt _ _ Hx)]|]. split; [reflexivity|]. split; [exact Sz|]. split; [exact Cm|].
    intros i Li N. apply feq_deq, F; [exact Li|]. intros k x' u I W. specialize (Fp k x' I). destruct x' as [|?|i' j|c i']; cbn in W; try tauto. destruct W as [<-|[]]. apply (N k i' j); apply Fp.
  Qed.
  Lemma written_in fresh (x y : ten) k x' u : fits (t_blk x) (t_blk y) k x' -> In u (written fresh x') -> In (k, u) (t_blk x) \/ (In (k, u) (t_blk y) /\ fresh true u = false).
  Proof.
    intros Fp W. destruct x' as [|?|i' j|c i']; cbn in W; try tauto; [destruct W as [<-|[]]; left; apply Fp|]. destruct c; cbn in Fp; destruct (fresh _ i') eqn:E; cbn in W; try tauto; destruct W as [<-|[]]; auto.
  Qed.
  (** [a.add(std::move(b), alpha)], a method that does not modify its object *)
  Lemma addmove_ok s a b (x y : ten) alpha T : good s -> nth_error (s_vars s) a = Some x -> nth_error (s_vars s) b = Some y -> cross (s_heap s) x y ->
    bt_add_rvalue (value (s_heap s) x) (value (s_heap s) y) alpha = Ok T ->
    exists s' z, step s (OAddMove a b alpha) = Ok s' /\ good s' /\ s_vars s' = s_vars s ++ [z] /\ same T (value (s_heap s') z) /\
      (forall k i j, In (k, i) (t_blk x) -> In (k, j) (t_blk y) -> In (k, i) (t_blk z) /\ deq (d_axpy alpha (read (s_heap s) i) (read (s_heap s) j)) (read (s_heap s') i)) /\
      (forall n w, nth_error (s_vars s) n = Some w -> apart (s_heap s) w x -> apart (s_heap s) w y -> unchanged s s' w).
  Proof.
    intros HG Hx Hy C EV. pose proof HG as [H HT]. unfold bt_add_rvalue in EV. destruct (bt_add (value (s_heap s) x) (value (s_heap s) y) alpha) as [T0| |] eqn:ET; cbn [rbind] in EV; try discriminate.
    assert (T0 = T /\ b_blocks T <> []) as [-> NE] by (destruct (b_blocks T0) eqn:E; [discriminate|injection EV as <-; split; [reflexivity|rewrite E; discriminate]]).
    set (fr := fun (c : bool) i => 2 <? counts (s_vars s) i + count (t_blk x) i + (if c then 1 else 0)).
    destruct (@core G R alpha fr _ x y T H (HT a x Hx) (HT b y Hy) C ET) as (p & h' & out & Ep & Er & H' & X & Gz & Sz & Fp & Cm & _ & F).
    cbn [step]. rewrite (rnth_some _ _ Hx), (rnth_some _ _ Hy). cbn [rbind]. rewrite (checks _ _ _ _ ET). cbn [rbind]. rewrite Ep. cbn [rbind]. fold fr. rewrite Er.
    assert (ON : out <> []) by (intros ->; destruct Sz as [_ Sz]; cbn in Sz; inversion Sz; congruence). destruct out as [|o out]; [destruct (ON eq_refl)|].
    eexists _, (mkT (t_meta x) (o :: out)). split; [reflexivity|]. split; [apply good_push; auto|]. split; [reflexivity|]. split; [exact Sz|]. split; [exact Cm|].
    intros n w Hw Ax Ay. apply unchanged_of with n; auto. intros k i Li I. apply feq_deq, F; [exact Li|]. intros k' x' u I' W Q. symmetry in Q. destruct (written_in fr x y k' x' u (Fp k' x' I') W) as [J|[J _]]; [exact (Ax _ _ _ _ I J Q)|exact (Ay _ _ _ _ I J Q)].
  Qed.

  Lemma count_in (l : list (key * nat)) k i : In (k, i) l -> 1 <= count l i.
  Proof. intros I. unfold count. assert (Q : In (k, i) (filter (fun e => snd e =? i) l)) by (apply filter_In; split; [exact I|apply Nat.eqb_refl]). destruct (filter _ l); [destruct Q|cbn; lia]. Qed.
  Lemma count_app l m i : count (l ++ m) i = count l i + count m i.
  Proof. unfold count. rewrite filter_app, app_length. reflexivity. Qed.
  Lemma counts_one (vs : list ten) a x k i : nth_error vs a = Some x -> In (k, i) (t_blk x) -> 1 <= counts vs i.
  Proof. intros Hx I. apply count_in with k. apply in_flat_map. exists x. split; [exact (nth_error_In _ _ Hx)|exact I]. Qed.
  Lemma counts_two : forall (vs : list ten) a b x y k k' i, a <> b -> nth_error vs a = Some x -> nth_error vs b = Some y -> In (k, i) (t_blk x) -> In (k', i) (t_blk y) -> 2 <= counts vs i.
  Proof.
    induction vs as [|v vs IH]; intros [|a] [|b] x y k k' i D Hx Hy I J; try discriminate; [lia| | |]; cbn in Hx, Hy; unfold counts; cbn [flat_map]; rewrite count_app; fold (counts vs i).
    - injection Hx as ->. pose proof (count_in _ _ _ I). pose proof (counts_one _ _ _ _ Hy J). lia.
    - injection Hy as ->. pose proof (count_in _ _ _ J). pose proof (counts_one _ _ _ _ Hx I). lia.
    - assert (2 <= counts vs i) by (apply (IH a b x y k k' i); auto). lia.
  Qed.
  (** [a.add_(std::move(b), alpha)] *)
  Lemma addinmove_ok s a b (x y : ten) alpha T : good s -> a <> b -> nth_error (s_vars s) a = Some x -> nth_error (s_vars s) b = Some y -> cross (s_heap s) x y ->
    bt_add (value (s_heap s) x) (value (s_heap s) y) alpha = Ok T ->
    exists s' z, step s (OAddInMove a b alpha) = Ok s' /\ good s' /\ s_vars s' = upd (upd (s_vars s) b (mkT (t_meta y) [])) a z /\ same T (value (s_heap s') z) /\
      (forall n w, n <> b -> nth_error (s_vars s) n = Some w -> apart (s_heap s) w x -> aligned (s_heap s) w y -> unchanged s s' w).
  Proof.
    intros HG D Hx Hy C ET. pose proof HG as [H HT]. set (fr := fun (c : bool) i => 2 <? counts (s_vars s) i + (if c then 1 else 0)).
    destruct (@core G R alpha fr _ x y T H (HT a x Hx) (HT b y Hy) C ET) as (p & h' & out & Ep & Er & H' & X & Gz & Sz & Fp & Cm & _ & F).
    cbn [step]. rewrite (rnth_some _ _ Hx), (rnth_some _ _ Hy). cbn [rbind]. rewrite (checks _ _ _ _ ET). cbn [rbind]. replace (a =? b) with false by (symmetry; apply Nat.eqb_neq, D). rewrite Ep. cbn [rbind]. fold fr. rewrite Er.
    pose proof (some_lt _ _ Hx) as La. pose proof (some_lt _ _ Hy) as Lb.
    eexists _, (mkT (t_meta x) out). split; [reflexivity|]. split.
    { split; [exact H'|]. apply good_upd with h'; [apply ext_refl| |apply good_upd with (s_heap s); auto; apply good_empty|exact Gz]. unfold upd. rewrite app_length, firstn_length_le by lia. cbn [length]. rewrite skipn_length. lia. }
    split; [reflexivity|]. split; [exact Sz|].
    intros n w Dn Hw Ax Ay. apply unchanged_of with n; auto. intros k i Li I. apply feq_deq, F; [exact Li|]. intros k' x' u I' W Q. symmetry in Q. destruct (written_in fr x y k' x' u (Fp k' x' I') W) as [J|[J N]]; [exact (Ax _ _ _ _ I J Q)|].
    destruct (Ay _ _ _ _ I J Q) as [-> ->]. unfold fr in N. apply Nat.ltb_ge in N. pose proof (@counts_two (s_vars s) n b w y _ _ _ Dn Hw Hy I J). lia.
  Qed.

  (** [a.mul_(c)] and the like *)
  Lemma put_all_ok (f : R -> R) : forall (l : list (key * nat)) h, good_heap h -> NoDup (map fst l) -> (forall k i, In (k, i) l -> i < length (h_win h)) ->
    (forall k i k' i', In (k, i) l -> In (k', i') l -> mem_at h i = mem_at h i' -> k = k') ->
    let h' := put_all (d_map f) h l in good_heap h' /\ h_win h' = h_win h /\ h_n h' = h_n h /\
    (forall k i, In (k, i) l -> deq (d_map f (read h i)) (read h' i)) /\
    (forall i, (forall k i', In (k, i') l -> mem_at h i' <> mem_at h i) -> feq (read h i) (read h' i)).
  Proof.
    induction l as [|[k i] l IH]; intros h H ND L D; cbn [put_all]; [split; [exact H|]; split; [reflexivity|]; split; [reflexivity|]; split; [intros ? ? []|intros; apply feq_refl]|].
    assert (Li : i < length (h_win h)) by (apply (L k); left; reflexivity). destruct (put_ok (d_map f (read h i)) H Li) as (H1 & X1 & _ & F1). destruct (put_win h i (d_map f (read h i))) as [PW PN].
    assert (V1 : deq (d_map f (read h i)) (read (put h i (d_map f (read h i))) i)) by (apply put_in; auto). set (h1 := put h i _) in *.
    assert (MP : forall j, mem_at h1 j = mem_at h j) by (intros j; unfold mem_at; rewrite PW; reflexivity). inversion ND as [|? ? NI ND']; subst.
    assert (OFF : forall k' i', In (k', i') l -> mem_at h i' <> mem_at h i).
    { intros k' i' I Q. assert (k' = k) as -> by (apply (D k' i' k i); auto; [right; exact I|left; reflexivity]). apply NI. exact (in_map fst _ _ I). }
    destruct (IH h1 H1 ND') as (H2 & W2 & N2 & V2 & F2).
    { intros k' i' I. rewrite PW. apply (L k'). right. exact I. } { intros k1 i1 k2 i2 I1 I2. rewrite !MP. apply D; right; assumption. }
    split; [exact H2|]. split; [rewrite W2; exact PW|]. split; [rewrite N2; exact PN|]. split.
    - intros k' i' [[= <- <-]|I].
      + apply deq_trans' with (read h1 i); [exact V1|]. apply feq_deq, F2. intros k' i' I. rewrite !MP. apply (OFF k' i' I).
      + apply deq_trans' with (d_map f (read h1 i')); [|apply (V2 k' i' I)]. destruct (F1 i' (OFF k' i' I)) as [S V]. split; [exact S|]. intros j _. cbn. rewrite V. reflexivity.
    - intros j N. apply feq_trans with (read h1 j); [apply F1; intros Q; apply (N k i); [left; reflexivity|congruence]|]. apply F2. intros k' i' I. rewrite !MP. apply (N k' i'). right. exact I.
  Qed.
  Lemma mapin_ok s a (x : ten) f : good s -> nth_error (s_vars s) a = Some x ->
    exists s', step s (OMapIn a f) = Ok s' /\ good s' /\ s_vars s' = s_vars s /\ same (map_blocks (d_map f) (value (s_heap s) x)) (value (s_heap s') x) /\
      (forall k i, In (k, i) (t_blk x) -> deq (d_map f (read (s_heap s) i)) (read (s_heap s') i)) /\
      (forall i, (forall k i', In (k, i') (t_blk x) -> mem_at (s_heap s) i' <> mem_at (s_heap s) i) -> deq (read (s_heap s) i) (read (s_heap s') i)).
  Proof.
    intros HG Hx. pose proof HG as [H HT]. destruct (HT a x Hx) as (Sx & Lx & Dx). destruct (@put_all_ok f (t_blk x) (s_heap s) H (sorted_nodup Sx) Lx Dx) as (H' & W & N & V & F).
    cbn [step]. rewrite (rnth_some _ _ Hx). cbn [rbind]. eexists. split; [reflexivity|]. cbn [s_heap s_vars]. set (h' := put_all _ _ _) in *.
    assert (X : ext (s_heap s) h') by (split; [exists []; rewrite app_nil_r; exact W|lia]).
    split; [split; [exact H'|intros n w Hw; apply good_ext with (s_heap s); [exact X|apply (HT n w Hw)]]|]. split; [reflexivity|]. split; [|split; [exact V|intros i Q; apply feq_deq, F, Q]].
    split; [reflexivity|]. cbn [value map_blocks with_blocks b_blocks]. clear - V. revert V. generalize h'. clear. induction (t_blk x) as [|[k i] l IH]; intros h' V; cbn; constructor; [split; [reflexivity|apply (V k i); left; reflexivity]|]. apply IH. intros; eapply V; right; eassumption.
  Qed.
  (** [a.mul(c)] and the like *)
  Lemma alloc_push s (m : btensor G R) (l : list (key * dense R)) h' r : good s -> sorted lexb l -> alloc_all (s_heap s) l = (h', r) ->
    let s' := push s h' (mkT m r) in good s' /\ same (with_blocks m l) (value h' (mkT m r)) /\ forall n w, nth_error (s_vars s) n = Some w -> unchanged s s' w /\ apart h' (mkT m r) w.
  Proof.
    intros HG Sl Ea s'. pose proof HG as [H HT]. destruct (alloc_all_ok _ H Ea) as (H1 & X1 & V1 & F1 & L1 & D1).
    assert (Kl : map fst l = map fst r) by exact (@Forall2_keys _ _ (fun d n => feq d (read h' n)) _ _ V1).
    split; [apply good_push; auto; split; [exact (@keys_sorted _ _ _ _ Kl Sl)|split; [intros k i I; apply (L1 k i I)|exact D1]]|]. split.
    - split; [reflexivity|]. cbn [value with_blocks b_blocks t_blk]. clear - V1. induction V1 as [|e e' l r [A B] _ IH]; cbn; constructor; auto. split; [exact A|apply feq_deq, B].
    - intros n w Hw. split; [exact (@frame_all _ _ s h' n w HG F1 Hw)|]. apply (@new_apart _ _ s h' n (mkT m r) w HG X1); [|exact Hw]. intros k i I. apply (L1 k i I).
  Qed.
  Lemma map_ok s a (x : ten) f : good s -> nth_error (s_vars s) a = Some x ->
    exists s' z, step s (OMap a f) = Ok s' /\ good s' /\ s_vars s' = s_vars s ++ [z] /\ same (map_blocks (d_map f) (value (s_heap s) x)) (value (s_heap s') z) /\
      forall n w, nth_error (s_vars s) n = Some w -> unchanged s s' w /\ apart (s_heap s') z w.
  Proof.
    intros HG Hx. cbn [step]. rewrite (rnth_some _ _ Hx). cbn [rbind]. destruct (alloc_all (s_heap s) _) as [h' l] eqn:Ea. assert (SS : sorted lexb (onv (fun i => d_map f (read (s_heap s) i)) (t_blk x))) by (apply onv_sorted; destruct HG as [_ HT]; apply (HT a x Hx)).
    destruct (@alloc_push s (t_meta x) _ h' l HG SS Ea) as (A & B & C).
    eexists _, (mkT (t_meta x) l). split; [reflexivity|]. split; [exact A|]. split; [reflexivity|]. split; [|exact C]. destruct B as [B1 B2]. split; [exact B1|]. cbn [map_blocks value with_blocks b_blocks] in *. rewrite map_map. exact B2.
  Qed.
  Lemma new_ok s T : good s -> sorted lexb (b_blocks T) -> exists s' z, step s (ONew T) = Ok s' /\ good s' /\ s_vars s' = s_vars s ++ [z] /\ same T (value (s_heap s') z) /\
      forall n w, nth_error (s_vars s) n = Some w -> unchanged s s' w /\ apart (s_heap s') z w.
  Proof.
    intros HG S. cbn [step]. destruct (alloc_all (s_heap s) (b_blocks T)) as [h' l] eqn:Ea. destruct (@alloc_push s T _ h' l HG S Ea) as (A & B & C).
    eexists _, (mkT T l). split; [reflexivity|]. split; [exact A|]. split; [reflexivity|]. split; [|exact C]. destruct T. exact B.
  Qed.

  (** [a.permute(p)] *)
  Lemma view_read h i q w : nth_error (h_win h) i = Some w -> let '(h', n) := view h i q in
    n = length (h_win h) /\ h_n h' = h_n h /\ h_win h' = h_win h ++ [mkW (w_mem w) (gather 0 q (w_sh w)) (fun j => w_pos w (gather 0 (inv_perm q) j))] /\
    read h' n = d_permute q (read h i) /\ forall j, j < length (h_win h) -> read h' j = read h j.
  Proof.
    intros E. unfold view. rewrite E. split; [reflexivity|]. split; [reflexivity|]. split; [reflexivity|]. split.
    - unfold read. cbn [h_win h_mem]. rewrite nth_error_app2, Nat.sub_diag by lia. cbn [nth_error]. rewrite E. reflexivity.
    - intros j L. unfold read. cbn [h_win h_mem]. rewrite nth_error_app1 by exact L. reflexivity.
  Qed.
  Lemma view_good h i q : good_heap h -> i < length (h_win h) -> is_perm q (length (dsh (read h i))) ->
    let '(h', n) := view h i q in good_heap h' /\ ext h h' /\ n = length (h_win h) /\ n < length (h_win h') /\ mem_at h' n = mem_at h i /\ read h' n = d_permute q (read h i) /\ forall j, j < length (h_win h) -> read h' j = read h j.
  Proof.
    intros H L P. destruct (nth_lt h L) as (w & E). pose proof (view_read _ _ q E) as V. destruct (view h i q) as [h' n]. destruct V as (-> & N & W & RN & RO).
    assert (Sh : dsh (read h i) = w_sh w) by (unfold read; rewrite E; reflexivity). rewrite Sh in P. destruct (H i w E) as [Lm I].
    assert (X : ext h h') by (split; [eexists; exact W|lia]).
    split.
    { intros j v Hv. rewrite W in Hv. rewrite N. destruct (Nat.lt_ge_cases j (length (h_win h))) as [Q|Q]; [rewrite nth_error_app1 in Hv by exact Q; exact (H j v Hv)|]. rewrite nth_error_app2 in Hv by exact Q. destruct (j - length (h_win h)) as [|z]; [|destruct z; discriminate]. injection Hv as <-. cbn [w_mem w_sh w_pos]. split; [exact Lm|].
      assert (B : forall a, in_range (gather 0 q (w_sh w)) a = true -> length a = length (w_sh w) /\ in_range (w_sh w) (gather 0 (inv_perm q) a) = true).
      { intros a Ha. assert (La : length a = length (w_sh w)) by (apply in_range_length in Ha; rewrite gather_length in Ha; rewrite Ha; exact (is_perm_length P)). split; [exact La|].
        rewrite <- (@in_range_gather q (w_sh w)); [|exact P|rewrite gather_length, inv_perm_length; exact (is_perm_length P)]. rewrite gather_inv'; [exact Ha|rewrite La; exact P]. }
      intros a a' Ha Ha' Q'. destruct (B a Ha) as [La Ia]. destruct (B a' Ha') as [La' Ia']. apply I in Q'; auto. rewrite <- (@gather_inv' _ 0 q a), <- (@gather_inv' _ 0 q a'), Q' by congruence. reflexivity. }
    split; [exact X|]. split; [reflexivity|]. split; [rewrite W, app_length; cbn; lia|]. split; [unfold mem_at; rewrite W, nth_error_app2, Nat.sub_diag, E by lia; reflexivity|]. auto.
  Qed.
  Lemma view_all_ok q r : is_perm q r -> forall (l : list (key * nat)) h h' out, good_heap h -> (forall k i, In (k, i) l -> i < length (h_win h) /\ length (dsh (read h i)) = r) -> view_all q h l = (h', out) ->
    good_heap h' /\ ext h h' /\ (forall j, j < length (h_win h) -> read h' j = read h j) /\
    map (fun e => (fst e, read h' (snd e))) out = map (fun e => (gather 0 q (fst e), d_permute q (read h (snd e)))) l /\
    Forall2 (fun e e' => fst e' = gather 0 q (fst e) /\ snd e' < length (h_win h') /\ mem_at h' (snd e') = mem_at h (snd e)) l out.
  Proof.
    intros P. induction l as [|[k i] l IH]; intros h h' out H L E; cbn [view_all] in E; [injection E as <- <-; split; [exact H|]; split; [apply ext_refl|]; split; [reflexivity|]; split; [reflexivity|constructor]|].
    destruct (L k i (or_introl eq_refl)) as [Li Ri]. pose proof (@view_good h i q H Li) as V. rewrite Ri in V. specialize (V P). destruct (view h i q) as [h1 n]. destruct V as (H1 & X1 & En & Ln & Mn & Vn & On).
    destruct (view_all q h1 l) as [h2 o] eqn:Eo. injection E as <- <-.
    assert (Ll : forall k i, In (k, i) l -> i < length (h_win h) /\ length (dsh (read h i)) = r) by (intros k' i' I; apply (L k' i'); right; exact I).
    destruct (IH h1 h2 o H1) as (H2 & X2 & O2 & V2 & M2); [|exact Eo|].
    { intros k' i' I. destruct (Ll k' i' I) as [A B]. rewrite (On i' A). split; [pose proof (ext_len X1); lia|exact B]. }
    split; [exact H2|]. split; [apply ext_trans with h1; assumption|]. split; [intros j Lj; rewrite O2 by (pose proof (ext_len X1); lia); apply On, Lj|]. split.
    - cbn [map fst snd]. rewrite (O2 n Ln), Vn, V2. f_equal. apply map_ext_in. intros [k' i'] I. cbn. rewrite (On i') by (apply (Ll k' i' I)). reflexivity.
    - constructor; [cbn; split; [reflexivity|]; split; [pose proof (ext_len X2); lia|rewrite (ext_mem X2 Ln); exact Mn]|].
      clear - M2 Ll X1. induction M2 as [|[k' i'] e' l o (A & B & C) _ IH]; constructor; [|apply IH; intros; eapply Ll; right; eassumption]. split; [exact A|]. split; [exact B|]. rewrite C. cbn. apply ext_mem; [exact X1|]. apply (Ll k' i'). left. reflexivity.
  Qed.
  Lemma sort_onv A B (f : A -> B) (l : list (key * A)) : onv f (fm_sort lexb l) = fm_sort lexb (onv f l).
  Proof.
    assert (I : forall x (m : list (key * A)), onv f (ins_sorted lexb x m) = ins_sorted lexb (fst x, f (snd x)) (onv f m)).
    { intros x m. induction m as [|y m IH]; [reflexivity|]. unfold onv in *. cbn [map ins_sorted fst]. destruct (lexb (fst y) (fst x)); [cbn [map]; rewrite IH|]; reflexivity. }
    induction l as [|x l IH]; [reflexivity|]. change (fm_sort lexb (x :: l)) with (ins_sorted lexb x (fm_sort lexb l)). rewrite I, IH. reflexivity.
  Qed.
  Lemma rmapM_same A B (f : A -> result B) g l r : rmapM f l = Ok r -> (forall x y, In x l -> f x = Ok y -> y = g x) -> r = map g l.
  Proof.
    revert r. induction l as [|x l IH]; intros r E H; cbn in E; [injection E as <-; reflexivity|]. destruct (f x) as [y| |] eqn:Ex; cbn in E; try discriminate. destruct (rmapM f l) as [m| |]; cbn in E; try discriminate. injection E as <-. cbn. f_equal; [apply H; [left; reflexivity|exact Ex]|apply IH; [reflexivity|]]. intros z w I. apply H. right. exact I.
  Qed.
  Lemma permute_blocks_are (T T' : btensor G R) p q : valid T -> names_perm (b_rank T) p q -> permute T p = Ok T' ->
    b_blocks T' = fm_sort lexb (map (fun e => (gather 0 q (fst e), d_permute q (snd e))) (b_blocks T)).
  Proof.
    intros HV [HN HP] E. unfold permute in E. destruct (negb _); [discriminate|]. rewrite (zdims_names HN) in E. cbn [rbind] in E.
    destruct (rmapM _ (b_blocks T)) as [bl| |] eqn:Eb; cbn [rbind] in E; try discriminate. destruct (rmapM (rnth (b_sbd T)) q) as [sb| |]; cbn [rbind] in E; try discriminate.
    unfold make in E. destruct (check_tensor _) as [[]| |]; cbn [rbind] in E; try discriminate. injection E as <-. cbn [b_blocks]. f_equal. apply (@rmapM_same _ _ _ (fun e => (gather 0 q (fst e), d_permute q (snd e))) _ _ Eb). intros [k t] y I Q. destruct HV as (HM & HB & _). destruct (HB k t I) as [[Hr _] _]. apply in_range_length in Hr.
    rewrite (@rmapM_rnth _ 0) in Q by (intros j Hj; apply (Permutation_in _ HP), in_seq in Hj; destruct HM as [M1 _]; lia). cbn [rbind] in Q. unfold t_permute in Q. destruct (is_permb q _); cbn in Q; [injection Q as <-; reflexivity|discriminate].
  Qed.
  Lemma perm_ok s a (x : ten) p q : good s -> nth_error (s_vars s) a = Some x -> valid (value (s_heap s) x) -> names_perm (b_rank (t_meta x)) p q ->
    exists T s' z, permute (value (s_heap s) x) p = Ok T /\ step s (OPerm a p) = Ok s' /\ good s' /\ s_vars s' = s_vars s ++ [z] /\ value (s_heap s') z = T /\
      (forall k i, In (k, i) (t_blk x) -> exists n, In (gather 0 q k, n) (t_blk z) /\ n <> i /\ mem_at (s_heap s') n = mem_at (s_heap s') i) /\
      forall n w, nth_error (s_vars s) n = Some w -> unchanged s s' w.
  Proof.
    intros HG Hx HV NP. pose proof HG as [H HT]. destruct (HT a x Hx) as (Sx & Lx & Dx). pose proof NP as [HN HP].
    destruct (@permute_spec G R (value (s_heap s) x) p q HV (zdims_names HN) HP) as (T & ET & _ & _). pose proof (permute_blocks_are HV NP ET) as BT.
    cbn [step]. rewrite (rnth_some _ _ Hx). cbn [rbind]. rewrite ET. cbn [rbind]. rewrite (zdims_names HN). cbn [rbind]. destruct (view_all q (s_heap s) (t_blk x)) as [h' l] eqn:Ev.
    assert (SHP : forall k i, In (k, i) (t_blk x) -> length k = b_rank (t_meta x) /\ length (dsh (read (s_heap s) i)) = b_rank (t_meta x)).
    { intros k i I. destruct HV as (HM & HB & _). destruct (HB k (read (s_heap s) i)) as [[Hr _] Hs]; [apply (in_map (fun e => (fst e, read (s_heap s) (snd e))) _ _ I)|]. apply in_range_length in Hr. pose proof (legs_length HM) as LL. destruct HM as [M1 _]. assert (Lk : length k = b_rank (value (s_heap s) x)) by lia. split; [exact Lk|]. rewrite Hs, pick_length by (rewrite LL; exact Lk). exact LL. }
    destruct (@view_all_ok q (b_rank (t_meta x)) HP (t_blk x) (s_heap s) h' l H) as (H' & X & O & V & M); [intros k i I; split; [apply (Lx k i I)|apply (SHP k i I)]|exact Ev|].
    exists T. eexists _, (mkT T (fm_sort lexb l)). split; [reflexivity|]. split; [reflexivity|].
    assert (INJ : forall k k', length k = b_rank (t_meta x) -> length k' = b_rank (t_meta x) -> gather 0 q k = gather 0 q k' -> k = k').
    { intros k k' A B E. rewrite <- (@gather_inv _ 0 q k), <- (@gather_inv _ 0 q k'), E by (rewrite ?A, ?B; exact HP). reflexivity. }
    assert (ND : NoDup (map fst l)).
    { destruct (@permute_blocks G R (value (s_heap s) x) q HV HP) as [BN _]. assert (KV : map fst l = map fst (map (fun e => (gather 0 q (fst e), d_permute q (snd e))) (b_blocks (value (s_heap s) x)))).
      { transitivity (map fst (map (fun e => (fst e, read h' (snd e))) l)); [rewrite map_map; reflexivity|]. rewrite V. cbn [value with_blocks b_blocks]. rewrite !map_map. reflexivity. }
      rewrite KV. exact BN. }
    assert (OUT : forall k n, In (k, n) (fm_sort lexb l) -> exists k0 i, In (k0, i) (t_blk x) /\ k = gather 0 q k0 /\ n < length (h_win h') /\ mem_at h' n = mem_at h' i).
    { intros k n I. apply (Permutation_in _ (Permutation_sym (fm_sort_perm l))) in I. destruct (Forall2_in M _ I) as ([k0 i] & I0 & A & B & C). cbn in A, B, C. exists k0, i. split; [exact I0|]. split; [exact A|]. split; [exact B|]. rewrite C. symmetry. apply ext_mem; [exact X|apply (Lx k0 i I0)]. }
    split; [apply good_push; auto; split; [apply (sort_nodup _ ND)|split]|split; [reflexivity|split; [|split]]].
    - intros k i I. destruct (OUT k i I) as (? & ? & _ & _ & L & _). exact L.
    - intros k i k' i' I I' Q. destruct (OUT k i I) as (k0 & i0 & I0 & -> & _ & Q0). destruct (OUT k' i' I') as (k1 & i1 & I1 & -> & _ & Q1). f_equal. apply (Dx k0 i0 k1 i1 I0 I1). rewrite <- (ext_mem X (Lx _ _ I0)), <- (ext_mem X (Lx _ _ I1)). congruence.
    - cbn [s_heap push value t_meta t_blk]. change (with_blocks T (onv (read h') (fm_sort lexb l)) = T). rewrite sort_onv. unfold onv. rewrite V. cbn [value with_blocks b_blocks] in BT. rewrite map_map in BT. cbn [fst snd] in BT. rewrite <- BT. destruct T; reflexivity.
    - cbn [s_heap push t_blk]. intros k i I. destruct (Forall2_in' M _ I) as ([k' n] & I' & A & B & C). cbn in A, B, C. subst k'. exists n. split; [exact (Permutation_in _ (fm_sort_perm l) I')|]. split; [|rewrite C; symmetry; apply ext_mem; [exact X|apply (Lx k i I)]].
      clear - Ev I' Lx I. assert (Q : forall (m : list (key * nat)) h h' o, view_all q h m = (h', o) -> (forall k i, In (k, i) m -> i < length (h_win h)) -> forall k n, In (k, n) o -> length (h_win h) <= n).
      { clear. induction m as [|[k i] m IH]; intros h h' o E L; cbn in E; [injection E as <- <-; intros ? ? []|]. assert (Li : i < length (h_win h)) by (apply (L k); left; reflexivity). destruct (nth_lt h Li) as (w & Ew). pose proof (view_read _ _ q Ew) as V. destruct (view h i q) as [h1 n]. destruct V as (-> & _ & W & _ & _).
        destruct (view_all q h1 m) as [h2 o'] eqn:E'. injection E as <- <-. intros k' n' [[= <- <-]|J]; [lia|]. assert (length (h_win h1) <= n'); [|rewrite W, app_length in *; lia]. apply (IH h1 h2 o' E') with k'; [|exact J]. intros k1 i1 I1. rewrite W, app_length. specialize (L k1 i1 (or_intror I1)). lia. }
      specialize (Q _ _ _ _ Ev Lx _ _ I'). specialize (Lx k i I). lia.
    - intros n w Hw. apply (@frame_all _ _ s h' n w HG); [|exact Hw]. intros i Li. rewrite (O i Li). apply feq_refl.
  Qed.

  (** *** Any step *)
  Lemma step_all s o s' : good s -> fair s o -> step s o = Ok s' ->
    good s' /\ forall n w, nth_error (s_vars s) n = Some w -> (forall a x, In a (may_write o) -> nth_error (s_vars s) a = Some x -> apart (s_heap s) w x) -> unchanged s s' w.
  Proof.
    intros HG HF E. pose proof HG as [H HT].
    assert (SELF : forall s1 : st, s_heap s1 = s_heap s -> forall w, unchanged s s1 w) by (intros s1 Es w; unfold unchanged; rewrite Es; apply value_same; intros; apply feq_deq, feq_refl).
    destruct o as [T|a|a|a f|a f|a p|a b alpha|a b alpha|a b alpha|a b alpha]; cbn [fair may_write] in *.
    - destruct (@new_ok s T HG HF) as (s1 & z & E1 & A & _ & _ & B). rewrite E1 in E. injection E as <-. split; [exact A|]. intros n w Hw _. apply (B n w Hw).
    - cbn [step] in E. destruct (rnth (s_vars s) a) as [x| |] eqn:Ex; cbn [rbind] in E; try discriminate. injection E as <-. split; [apply good_push; auto; [apply ext_refl|apply (HT a x), rnth_error, Ex]|]. intros n w _ _. apply SELF. reflexivity.
    - cbn [step] in E. destruct (rnth (s_vars s) a) as [x| |] eqn:Ex; cbn [rbind] in E; try discriminate. injection E as <-. split; [split; [exact H|cbn [s_vars s_heap]; apply good_upd with (s_heap s); auto; [apply ext_refl|exact (some_lt _ _ (rnth_error _ _ Ex))|apply good_empty]]|]. intros n w _ _. apply SELF. reflexivity.
    - assert (exists x, nth_error (s_vars s) a = Some x) as (x & Hx) by (cbn [step] in E; destruct (rnth (s_vars s) a) as [x| |] eqn:Ex; cbn [rbind] in E; try discriminate; exists x; apply rnth_error, Ex).
      destruct (@map_ok s a x f HG Hx) as (s1 & z & E1 & A & _ & _ & B). rewrite E1 in E. injection E as <-. split; [exact A|]. intros n w Hw _. apply (B n w Hw).
    - assert (exists x, nth_error (s_vars s) a = Some x) as (x & Hx) by (cbn [step] in E; destruct (rnth (s_vars s) a) as [x| |] eqn:Ex; cbn [rbind] in E; try discriminate; exists x; apply rnth_error, Ex).
      destruct (@mapin_ok s a x f HG Hx) as (s1 & E1 & A & _ & _ & _ & B). rewrite E1 in E. injection E as <-. split; [exact A|]. intros n w Hw N. apply unchanged_of with n; auto. intros k i _ I. apply B. intros k' i' I' Q. symmetry in Q. exact (N a x (or_introl eq_refl) Hx _ _ _ _ I I' Q).
    - assert (exists x, nth_error (s_vars s) a = Some x) as (x & Hx) by (cbn [step] in E; destruct (rnth (s_vars s) a) as [x| |] eqn:Ex; cbn [rbind] in E; try discriminate; exists x; apply rnth_error, Ex).
      destruct (HF x Hx) as (HV & q & NP). destruct (@perm_ok s a x p q HG Hx HV NP) as (T & s1 & z & _ & E1 & A & _ & _ & _ & B). rewrite E1 in E. injection E as <-. split; [exact A|]. intros n w Hw _. apply (B n w Hw).
    - assert (exists x y, nth_error (s_vars s) a = Some x /\ nth_error (s_vars s) b = Some y) as (x & y & Hx & Hy).
      { cbn [step] in E. destruct (rnth (s_vars s) a) as [x| |] eqn:Ex; cbn [rbind] in E; try discriminate. destruct (rnth (s_vars s) b) as [y| |] eqn:Ey; cbn [rbind] in E; try discriminate. exists x, y. split; apply rnth_error; assumption. }
      pose proof (@add_ok G R s a b x y alpha HG Hx Hy) as Q. destruct (bt_add _ _ _); [|congruence|congruence]. destruct Q as (s1 & z & E1 & A & _ & _ & B). rewrite E1 in E. injection E as <-. split; [exact A|]. intros n w Hw _. apply (B n w Hw).
    - assert (exists x y, nth_error (s_vars s) a = Some x /\ nth_error (s_vars s) b = Some y) as (x & y & Hx & Hy).
      { cbn [step] in E. destruct (rnth (s_vars s) a) as [x| |] eqn:Ex; cbn [rbind] in E; try discriminate. destruct (rnth (s_vars s) b) as [y| |] eqn:Ey; cbn [rbind] in E; try discriminate. exists x, y. split; apply rnth_error; assumption. }
      assert (exists T, bt_add_rvalue (value (s_heap s) x) (value (s_heap s) y) alpha = Ok T) as (T & ET).
      { unfold bt_add_rvalue. pose proof (@add_is (s_heap s) x y alpha (proj1 (HT a x Hx)) (proj1 (HT b y Hy))) as Q. pose proof E as E0. cbn [step] in E0. rewrite (rnth_some _ _ Hx), (rnth_some _ _ Hy) in E0. cbn [rbind] in E0. destruct (add_tensor_check (t_meta x) (t_meta y)); cbn [rbind] in E0; try discriminate. destruct Q as (T & ET). rewrite ET. cbn [rbind].
        set (fr := fun (c : bool) i => 2 <? counts (s_vars s) i + count (t_blk x) i + (if c then 1 else 0)) in *. destruct (@core G R alpha fr _ x y T H (HT a x Hx) (HT b y Hy) (HF x y Hx Hy) ET) as (p & h' & out & Ep & Er & _ & _ & _ & Sz & _). rewrite Ep in E0. cbn [rbind] in E0. rewrite Er in E0. destruct (b_blocks T) eqn:ETb; [|eauto]. destruct Sz as [_ Sz]. rewrite ETb in Sz. cbn in Sz. destruct out; [discriminate|inversion Sz]. }
      destruct (@addmove_ok s a b x y alpha T HG Hx Hy (HF x y Hx Hy) ET) as (s1 & z & E1 & A & _ & _ & _ & B). rewrite E1 in E. injection E as <-. split; [exact A|]. intros n w Hw N. apply (B n w Hw); [apply (N a)|apply (N b)]; cbn; auto.
    - assert (exists x y, nth_error (s_vars s) a = Some x /\ nth_error (s_vars s) b = Some y) as (x & y & Hx & Hy).
      { cbn [step] in E. destruct (rnth (s_vars s) a) as [x| |] eqn:Ex; cbn [rbind] in E; try discriminate. destruct (rnth (s_vars s) b) as [y| |] eqn:Ey; cbn [rbind] in E; try discriminate. exists x, y. split; apply rnth_error; assumption. }
      pose proof (@add_is (s_heap s) x y alpha (proj1 (HT a x Hx)) (proj1 (HT b y Hy))) as Q. pose proof E as E0. cbn [step] in E0. rewrite (rnth_some _ _ Hx), (rnth_some _ _ Hy) in E0. cbn [rbind] in E0. destruct (add_tensor_check (t_meta x) (t_meta y)); cbn [rbind] in E0; try discriminate. clear E0. destruct Q as (T & ET).
      destruct (@addin_ok s a b x y alpha T HG Hx Hy (HF x y Hx Hy) ET) as (s1 & z & E1 & A & _ & _ & _ & B). rewrite E1 in E. injection E as <-. split; [exact A|]. intros n w Hw N. apply unchanged_of with n; auto. intros k i Li I. apply B; [exact Li|]. intros k' i' j I' _ Q. symmetry in Q. exact (N a x (or_introl eq_refl) Hx _ _ _ _ I I' Q).
    - destruct HF as [D HF]. assert (exists x y, nth_error (s_vars s) a = Some x /\ nth_error (s_vars s) b = Some y) as (x & y & Hx & Hy).
      { cbn [step] in E. destruct (rnth (s_vars s) a) as [x| |] eqn:Ex; cbn [rbind] in E; try discriminate. destruct (rnth (s_vars s) b) as [y| |] eqn:Ey; cbn [rbind] in E; try discriminate. exists x, y. split; apply rnth_error; assumption. }
      pose proof (@add_is (s_heap s) x y alpha (proj1 (HT a x Hx)) (proj1 (HT b y Hy))) as Q. pose proof E as E0. cbn [step] in E0. rewrite (rnth_some _ _ Hx), (rnth_some _ _ Hy) in E0. cbn [rbind] in E0. destruct (add_tensor_check (t_meta x) (t_meta y)); cbn [rbind] in E0; try discriminate. clear E0. destruct Q as (T & ET).
      destruct (@addinmove_ok s a b x y alpha T HG D Hx Hy (HF x y Hx Hy) ET) as (s1 & z & E1 & A & _ & _ & B). rewrite E1 in E. injection E as <-. split; [exact A|]. intros n w Hw N.
      destruct (Nat.eq_dec n b) as [->|Dn]; [|apply (B n w Dn Hw); [apply (N a); cbn; auto|]].
      + rewrite Hy in Hw. injection Hw as <-. assert (AP : apart (s_heap s) y y) by (apply (N b); cbn; auto). apply unchanged_of with b; auto. intros k i _ I. destruct (AP _ _ _ _ I I eq_refl).
      + assert (AP : apart (s_heap s) w y) by (apply (N b); cbn; auto). intros k i k' j I J Q. destruct (AP _ _ _ _ I J Q).
  Qed.
  Lemma start_good : good (@start G R).
  Proof. split; intros [|n] w E; discriminate. Qed.
  Lemma runs_cons s o p : runs s (o :: p) = (do s1 <- step s o ; runs s1 p).
  Proof. reflexivity. Qed.
  Lemma runs_app : forall p p' s, runs s (p ++ p') = rbind (runs s p) (fun s1 => runs s1 p').
  Proof. induction p as [|o p IH]; intros p' s; [reflexivity|]. cbn [app]. rewrite !runs_cons. destruct (step s o); cbn [rbind]; auto. Qed.
  Lemma runs_good : forall p s s', good s -> fair_run s p -> runs s p = Ok s' -> good s'.
  Proof.
    induction p as [|o p IH]; intros s s' HG HF E; [injection E as <-; exact HG|]. rewrite runs_cons in E. destruct (step s o) as [s1| |] eqn:E1; cbn [rbind] in E; try discriminate. destruct HF as [F1 F2]. apply (IH s1 s'); [apply (@step_all _ _ _ HG F1 E1)|apply F2, E1|exact E].
  Qed.
  Lemma step_vars s o s' n w : may_write o = [] -> (forall a, o <> ODrop a) -> step s o = Ok s' -> nth_error (s_vars s) n = Some w -> nth_error (s_vars s') n = Some w.
  Proof.
    intros M ND E Hw. assert (P : forall h' z, nth_error (s_vars (push s h' z)) n = Some w) by (intros; cbn; rewrite nth_error_app1 by (exact (some_lt _ _ Hw)); exact Hw).
    destruct o as [T|a|a|a f|a f|a p|a b alpha|a b alpha|a b alpha|a b alpha]; try discriminate; cbn [step] in E.
    - destruct (alloc_all _ _). injection E as <-. apply P.
    - destruct (rnth _ a); cbn [rbind] in E; try discriminate. injection E as <-. apply P.
    - destruct (ND a eq_refl).
    - destruct (rnth _ a); cbn [rbind] in E; try discriminate. destruct (alloc_all _ _). injection E as <-. apply P.
    - destruct (rnth _ a); cbn [rbind] in E; try discriminate. destruct (permute _ _); cbn [rbind] in E; try discriminate. destruct (rmapM _ p); cbn [rbind] in E; try discriminate. destruct (view_all _ _ _). injection E as <-. apply P.
    - destruct (rnth _ a); cbn [rbind] in E; try discriminate. destruct (rnth _ b); cbn [rbind] in E; try discriminate. destruct (add_tensor_check _ _); cbn [rbind] in E; try discriminate. destruct (alloc_all _ _). destruct (plan _ _); cbn [rbind] in E; try discriminate. destruct (run _ _ _ _). injection E as <-. apply P.
  Qed.
  Lemma pure_runs : forall p s s', good s -> fair_run s p -> Forall (fun o => may_write o = [] /\ forall a, o <> ODrop a) p -> runs s p = Ok s' ->
    forall n w, nth_error (s_vars s) n = Some w -> nth_error (s_vars s') n = Some w /\ unchanged s s' w.
  Proof.
    induction p as [|o p IH]; intros s s' HG HF HP E n w Hw.
    - injection E as <-. split; [exact Hw|]. apply value_same. intros; apply feq_deq, feq_refl.
    - rewrite runs_cons in E. destruct (step s o) as [s1| |] eqn:E1; cbn [rbind] in E; try discriminate. destruct HF as [F1 F2]. inversion HP as [|? ? [M ND] HP']; subst. destruct (@step_all _ _ _ HG F1 E1) as [G1 U1].
      destruct (IH s1 s' G1 (F2 _ E1) HP' E n w (@step_vars _ _ _ n w M ND E1 Hw)) as [A B]. split; [exact A|]. apply same_trans with (value (s_heap s1) w); [|exact B]. apply (U1 n w Hw). rewrite M. intros ? ? [].
  Qed.
End T.
