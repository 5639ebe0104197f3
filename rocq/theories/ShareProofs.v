(** Lemmas about the memories behind block tensors. *)
From Verif Require Import Base Quantity FlatMap SpecFlatMap FlatMapProofs FlatMapThms Ring Index SpecIndex Dense IndexProofs BTensor SpecBTensor BTensorProofs BTensorArith Share SpecShare.
Set Implicit Arguments.

Section P.
  Context {G : abgroup} {R : ring}.
  Notation key := (list nat).
  Notation heap := (@heap R).
  Notation KO := key_order_idx.
  Implicit Types h : heap.

  Definition feq (a b : dense R) : Prop := dsh a = dsh b /\ forall j, dv a j = dv b j.
  Lemma feq_refl a : feq a a. Proof. split; auto. Qed.
  Lemma feq_trans a b c : feq a b -> feq b c -> feq a c.
  Proof. intros [S V] [S' V']. split; [congruence|]. intros j. rewrite V. apply V'. Qed.
  Lemma feq_sym a b : feq a b -> feq b a. Proof. intros [S V]. split; auto. Qed.
  Lemma feq_deq a b : feq a b -> deq a b. Proof. intros [S V]. split; auto. Qed.
  Lemma deq_trans' (a b c : dense R) : deq a b -> deq b c -> deq a c.
  Proof. intros [S V] [S' V']. split; [congruence|]. intros j Hj. rewrite V by exact Hj. apply V'. rewrite <- S. exact Hj. Qed.

  (** Windows are only added. *)
  Definition ext h h' : Prop := (exists w, h_win h' = h_win h ++ w) /\ h_n h <= h_n h'.
  Lemma ext_refl h : ext h h. Proof. split; [exists []; rewrite app_nil_r; reflexivity|lia]. Qed.
  Lemma ext_trans h1 h2 h3 : ext h1 h2 -> ext h2 h3 -> ext h1 h3.
  Proof. intros [(w & E) L] [(w' & E') L']. split; [exists (w ++ w'); rewrite E', E, app_assoc; reflexivity|lia]. Qed.
  Lemma ext_nth h h' i : ext h h' -> i < length (h_win h) -> nth_error (h_win h') i = nth_error (h_win h) i.
  Proof. intros [(w & E) _] H. rewrite E, nth_error_app1 by exact H. reflexivity. Qed.
  Lemma ext_len h h' : ext h h' -> length (h_win h) <= length (h_win h').
  Proof. intros [(w & E) _]. rewrite E, app_length. lia. Qed.
  Lemma ext_mem h h' i : ext h h' -> i < length (h_win h) -> mem_at h' i = mem_at h i.
  Proof. intros E H. unfold mem_at. rewrite (ext_nth E H). reflexivity. Qed.
  Lemma nth_lt h i : i < length (h_win h) -> exists w, nth_error (h_win h) i = Some w.
  Proof. intros H. destruct (nth_error (h_win h) i) eqn:E; [eauto|]. apply nth_error_None in E. lia. Qed.
  Lemma mem_lt h i : good_heap h -> i < length (h_win h) -> exists m, mem_at h i = Some m /\ m < h_n h.
  Proof. intros H L. destruct (nth_lt h L) as (w & E). unfold mem_at. rewrite E. exists (w_mem w). split; [reflexivity|]. apply (H i w E). Qed.

  Lemma alloc_ok h d h' n : good_heap h -> alloc h d = (h', n) ->
    good_heap h' /\ ext h h' /\ n = length (h_win h) /\ n < length (h_win h') /\ mem_at h' n = Some (h_n h) /\ h_n h' = S (h_n h) /\ feq (read h' n) d /\
    forall i, i < length (h_win h) -> feq (read h i) (read h' i).
  Proof.
    intros H [= <- <-]. set (h' := mkH _ _ _).
    assert (NN : nth_error (h_win h') (length (h_win h)) = Some (mkW (h_n h) (dsh d) (fun j => j))) by (unfold h'; cbn [h_win]; rewrite nth_error_app2, Nat.sub_diag by lia; reflexivity).
    assert (E : ext h h') by (split; [eexists; reflexivity|cbn; lia]).
    split.
    { intros i w Hw. destruct (Nat.lt_ge_cases i (length (h_win h))) as [L|L].
      - rewrite (ext_nth E L) in Hw. destruct (H i w Hw) as [M I]. split; [cbn; lia|exact I].
      - cbn in Hw. rewrite nth_error_app2 in Hw by exact L. destruct (i - length (h_win h)) as [|z]; [|destruct z; discriminate]. injection Hw as <-. cbn. split; [lia|auto]. }
    split; [exact E|]. split; [reflexivity|]. split; [cbn; rewrite app_length; cbn; lia|]. split; [unfold mem_at; rewrite NN; reflexivity|]. split; [reflexivity|]. split.
    - unfold read. rewrite NN. cbn. split; [reflexivity|]. intros j. cbn. rewrite Nat.eqb_refl. reflexivity.
    - intros i L. unfold read. rewrite (ext_nth E L). destruct (nth_lt h L) as (w & Ew). rewrite Ew. split; [reflexivity|]. intros j. cbn. destruct (H i w Ew) as [M _]. destruct (Nat.eqb_spec (w_mem w) (h_n h)); [lia|reflexivity].
  Qed.

  Lemma put_win h i d : h_win (put h i d) = h_win h /\ h_n (put h i d) = h_n h.
  Proof. unfold put. destruct (nth_error (h_win h) i); auto. Qed.
  Lemma put_ok h i d : good_heap h -> i < length (h_win h) ->
    let h' := put h i d in good_heap h' /\ ext h h' /\ deq (mkD (dsh (read h i)) (dv d)) (read h' i) /\
    forall i', mem_at h i' <> mem_at h i -> feq (read h i') (read h' i').
  Proof.
    intros H L h'. destruct (put_win h i d) as [EW EN].
    assert (E : ext h h') by (split; [exists []; rewrite app_nil_r; exact EW|unfold h'; lia]).
    split; [intros i' w Hw; unfold h' in *; rewrite EW in Hw; rewrite EN; exact (H i' w Hw)|]. split; [exact E|].
    destruct (nth_lt h L) as (w & Ew). destruct (H i w Ew) as [_ I]. split.
    - unfold read. unfold h'. rewrite EW, Ew. cbn. split; [reflexivity|]. cbn. intros j Hj. unfold put. rewrite Ew. cbn. rewrite Nat.eqb_refl.
      destruct (find (fun j0 => leqb (w_pos w j0) (w_pos w j)) (idxs (w_sh w))) as [j'|] eqn:F.
      + apply find_some in F as [F1 F2]. apply idxs_In in F1. apply (keq KO) in F2. rewrite (I j' j F1 Hj F2). reflexivity.
      + apply find_none with (x := j) in F; [|apply idxs_In; exact Hj]. rewrite (keq_refl KO) in F. discriminate.
    - intros i' D. unfold read, h'. rewrite EW. unfold mem_at in D. destruct (nth_error (h_win h) i') as [w'|]; [|apply feq_refl]. cbn. split; [reflexivity|]. intros j. cbn. unfold put. rewrite Ew in *. cbn in *. destruct (Nat.eqb_spec (w_mem w') (w_mem w)); [congruence|reflexivity].
  Qed.

  Definition uses (x : todo) : list nat := match x with Mine i | Yours i | Alone _ i => [i] | Both i j => [i; j] end.
  Definition written (fresh : bool -> nat -> bool) (x : todo) : list nat := match x with Both i _ => [i] | Alone c i => if fresh c i then [] else [i] | _ => [] end.
  Definition eval (alpha : R) h (x : todo) : dense R := match x with Mine i | Yours i => read h i | Both i j => d_axpy alpha (read h i) (read h j) | Alone _ i => d_scale alpha (read h i) end.
  Definition becomes (fresh : bool -> nat -> bool) h h' (x : todo) (n : nat) : Prop :=
    match x with Mine i | Yours i | Both i _ => n = i | Alone c i => if fresh c i then length (h_win h) <= n /\ exists m, mem_at h' n = Some m /\ h_n h <= m else n = i end.
  Lemma written_uses fresh x u : In u (written fresh x) -> In u (uses x).
  Proof. destruct x as [i|i|i j|c i]; cbn; try tauto. destruct (fresh c i); cbn; tauto. Qed.
  Lemma axpy_feq alpha (a a' b b' : dense R) : feq a a' -> feq b b' -> feq (d_axpy alpha a b) (d_axpy alpha a' b').
  Proof. intros [S V] [S' V']. split; [exact S|]. intros j. cbn. rewrite V, V'. reflexivity. Qed.
  Lemma scale_feq alpha (a a' : dense R) : feq a a' -> feq (d_scale alpha a) (d_scale alpha a').
  Proof. intros [S V]. split; [exact S|]. intros j. cbn. rewrite V. reflexivity. Qed.
  Lemma put_in (h1 : heap) i d : good_heap h1 -> i < length (h_win h1) -> dsh d = dsh (read h1 i) -> deq d (read (put h1 i d) i).
  Proof. intros H L S. destruct (put_ok d H L) as (_ & _ & V & _). destruct d as [sh f]. cbn in S. subst sh. exact V. Qed.

  Lemma run_ok alpha fresh : forall pl h h' out, good_heap h -> (forall k x u, In (k, x) pl -> In u (uses x) -> u < length (h_win h)) -> NoDup (map fst pl) ->
    (forall k x k' x' u u', In (k, x) pl -> In (k', x') pl -> In u (uses x) -> In u' (uses x') -> mem_at h u = mem_at h u' -> k = k') ->
    run alpha fresh h pl = (h', out) ->
    good_heap h' /\ ext h h' /\
    Forall2 (fun e e' => fst e = fst e' /\ deq (eval alpha h (snd e)) (read h' (snd e')) /\ becomes fresh h h' (snd e) (snd e')) pl out /\
    (forall i, i < length (h_win h) -> (forall k x u, In (k, x) pl -> In u (written fresh x) -> mem_at h u <> mem_at h i) -> feq (read h i) (read h' i)) /\
    (forall k n, In (k, n) out -> n < length (h_win h')) /\
    (forall k n k' n', In (k, n) out -> In (k', n') out -> mem_at h' n = mem_at h' n' -> k = k').
  Proof.
    induction pl as [|[k x] pl IH]; intros h h' out H HU ND HA E.
    { injection E as <- <-. split; [exact H|]. split; [apply ext_refl|]. split; [constructor|]. split; [intros; apply feq_refl|]. split; [intros ? ? []|intros ? ? ? ? []]. }
    cbn [run] in E. destruct (run alpha fresh h pl) as [h1 r] eqn:Er. inversion ND as [|? ? NI ND']; subst.
    destruct (IH h h1 r H) as (H1 & X1 & V1 & F1 & L1 & M1); auto.
    { intros; eapply HU; [right|]; eauto. } { intros k1 x1 k2 x2 u u' I1 I2. apply HA; right; auto. } clear IH.
    assert (NK : forall k' x', In (k', x') pl -> k' <> k) by (intros k' x' Hi ->; apply NI; exact (in_map fst _ _ Hi)).
    assert (FU : forall u, In u (uses x) -> feq (read h u) (read h1 u)).
    { intros u Hu. apply F1; [apply (HU k x u); [left; reflexivity|exact Hu]|]. intros k' x' u' Hi Hu' Q. apply (NK k' x' Hi). apply (HA k' x' k x u' u); auto; [right; exact Hi|left; reflexivity|apply written_uses with fresh; exact Hu']. }
    assert (LU : forall u, In u (uses x) -> u < length (h_win h1)) by (intros u Hu; pose proof (ext_len X1); specialize (HU k x u (or_introl eq_refl) Hu); lia).
    (* handles of the other results are not on memories of this block *)
    assert (OR : forall k' n u, In (k', n) r -> In u (uses x) -> mem_at h1 n <> mem_at h1 u).
    { intros k' n u Hn Hu Q. assert (Lu : u < length (h_win h)) by (apply (HU k x u); [left; reflexivity|exact Hu]). rewrite (ext_mem X1 Lu) in Q.
      destruct (proj1 (@In_nth_error _ r (k', n)) Hn) as (p & Ep) || destruct (In_nth_error r (k', n) Hn) as (p & Ep).
      assert (exists e, nth_error pl p = Some e /\ becomes fresh h h1 (snd e) n /\ fst e = k') as (e & Ee & B & K).
      { clear - V1 Ep. revert p Ep. induction V1 as [|e e' l l' (A & _ & B) V IH]; intros [|p] Ep; cbn in *; try discriminate; [injection Ep as ->; exists e; auto|apply IH; exact Ep]. }
      apply nth_error_In in Ee. destruct e as [k'' x']. cbn in K, B. subst k''. destruct (mem_lt H Lu) as (m & Em & Lm).
      assert (Q2 : In n (uses x') -> False). { intros Hn'. apply (NK k' x' Ee). apply (HA k' x' k x n u); auto; [right; exact Ee|left; reflexivity|]. rewrite <- Q. symmetry. apply ext_mem; [exact X1|]. apply (HU k' x' n); [right; exact Ee|exact Hn']. }
      destruct x' as [i|i|i j|c i]; cbn in B; try (subst n; apply Q2; cbn; auto; fail). destruct (fresh c i); [|subst n; apply Q2; cbn; auto]. destruct B as (_ & m' & Em' & Lm'). rewrite Em', Em in Q. injection Q as ->. lia. }
    (* result of one more write in place *)
    assert (PUT : forall i d v, In i (uses x) -> deq v d -> dsh d = dsh (read h1 i) -> eval alpha h x = v -> becomes fresh h h1 x i -> (forall g, becomes fresh h g x i) -> In i (written fresh x) -> (h', out) = (put h1 i d, (k, i) :: r) ->
      good_heap h' /\ ext h h' /\
      Forall2 (fun e e' => fst e = fst e' /\ deq (eval alpha h (snd e)) (read h' (snd e')) /\ becomes fresh h h' (snd e) (snd e')) ((k, x) :: pl) out /\
      (forall i, i < length (h_win h) -> (forall k' x' u, In (k', x') ((k, x) :: pl) -> In u (written fresh x') -> mem_at h u <> mem_at h i) -> feq (read h i) (read h' i)) /\
      (forall k n, In (k, n) out -> n < length (h_win h')) /\
      (forall k n k' n', In (k, n) out -> In (k', n') out -> mem_at h' n = mem_at h' n' -> k = k')).
    { intros i d v Hi Dv Sd Ev _ Bi Wi [= -> ->]. destruct (put_ok d H1 (LU i Hi)) as (H2 & X2 & _ & F2). destruct (put_win h1 i d) as [PW PN].
      assert (MP : forall n, mem_at (put h1 i d) n = mem_at h1 n) by (intros n; unfold mem_at; rewrite PW; reflexivity).
      split; [exact H2|]. split; [apply ext_trans with h1; assumption|]. split; [|split; [|split]].
      - constructor.
        + cbn. split; [reflexivity|]. split; [rewrite Ev; apply deq_trans' with d; [exact Dv|apply put_in; auto]|apply Bi].
        + assert (OR' : forall e, In e r -> mem_at h1 (snd e) <> mem_at h1 i) by (intros [k' n] He; apply (OR k' n i He Hi)).
          clear - V1 OR' F2 MP. induction V1 as [|e e' l l' (A & D & B) V IH]; constructor.
          * split; [exact A|]. split; [apply deq_trans' with (read h1 (snd e')); [exact D|apply feq_deq, F2, OR'; left; reflexivity]|].
            destruct (snd e) as [a|a|a b|c a]; cbn in *; auto. destruct (fresh c a); auto. rewrite MP. exact B.
          * apply IH. intros; apply OR'; right; assumption.
      - intros i0 L0 W0. apply feq_trans with (read h1 i0); [apply F1; [exact L0|intros k' x' u Hk; apply (W0 k' x' u); right; exact Hk]|]. apply F2. rewrite (ext_mem X1 L0), (ext_mem X1); [|apply (HU k x i); [left; reflexivity|exact Hi]].
        intros Q. apply (W0 k x i); [left; reflexivity|exact Wi|congruence].
      - intros k' n [[= <- <-]|Hn]; rewrite PW; [apply LU; exact Hi|apply (L1 k' n Hn)].
      - intros k1 n1 k2 n2 I1 I2. rewrite !MP. destruct I1 as [[= <- <-]|I1], I2 as [[= <- <-]|I2]; intros Q; auto; [|destruct (OR k1 n1 i I1 Hi Q)|exact (M1 _ _ _ _ I1 I2 Q)]. symmetry in Q. destruct (OR k2 n2 i I2 Hi Q). }
    assert (KEEP : forall i, x = Mine i \/ x = Yours i -> (h', out) = (h1, (k, i) :: r) -> 
      good_heap h' /\ ext h h' /\
      Forall2 (fun e e' => fst e = fst e' /\ deq (eval alpha h (snd e)) (read h' (snd e')) /\ becomes fresh h h' (snd e) (snd e')) ((k, x) :: pl) out /\
      (forall i, i < length (h_win h) -> (forall k' x' u, In (k', x') ((k, x) :: pl) -> In u (written fresh x') -> mem_at h u <> mem_at h i) -> feq (read h i) (read h' i)) /\
      (forall k n, In (k, n) out -> n < length (h_win h')) /\
      (forall k n k' n', In (k, n) out -> In (k', n') out -> mem_at h' n = mem_at h' n' -> k = k')).
    { intros i Hx [= -> ->]. assert (Hi : In i (uses x)) by (destruct Hx as [-> | ->]; left; reflexivity).
      split; [exact H1|]. split; [exact X1|]. split; [|split; [|split]].
      - constructor; [|exact V1]. cbn. split; [reflexivity|]. split; [|destruct Hx as [-> | ->]; reflexivity]. replace (eval alpha h x) with (read h i) by (destruct Hx as [-> | ->]; reflexivity). apply feq_deq, FU, Hi.
      - intros i0 L0 W0. apply F1; [exact L0|]. intros k' x' u Hk. apply (W0 k' x' u). right; exact Hk.
      - intros k' n [[= <- <-]|Hn]; [apply LU; exact Hi|apply (L1 k' n Hn)].
      - intros k1 n1 k2 n2 I1 I2. destruct I1 as [[= <- <-]|I1], I2 as [[= <- <-]|I2]; intros Q; auto; [|destruct (OR k1 n1 i I1 Hi Q)|exact (M1 _ _ _ _ I1 I2 Q)]. symmetry in Q. destruct (OR k2 n2 i I2 Hi Q). }
    destruct x as [i|i|i j|c i].
    - apply (KEEP i); auto.
    - apply (KEEP i); auto.
    - apply (PUT i (d_axpy alpha (read h1 i) (read h1 j)) (eval alpha h (Both i j))); auto; cbn; auto. apply feq_deq, axpy_feq; apply FU; cbn; auto.
    - destruct (fresh c i) eqn:Ef.
      + destruct (alloc h1 _) as [h2 n] eqn:Ea. injection E as <- <-. destruct (alloc_ok H1 Ea) as (H2 & X2 & En & Ln & Mn & Nn & Vn & Fn).
        assert (MP : forall n', n' < length (h_win h1) -> mem_at h2 n' = mem_at h1 n') by (intros; apply ext_mem; assumption).
        assert (OLD : forall k' n', In (k', n') r -> mem_at h2 n' <> mem_at h2 n).
        { intros k' n' Hn Q. rewrite MP, Mn in Q by (apply (L1 k' n' Hn)). destruct (mem_lt H1 (L1 k' n' Hn)) as (m & Em & Lm). rewrite Em in Q. injection Q as ->. lia. }
        split; [exact H2|]. split; [apply ext_trans with h1; assumption|]. split; [|split; [|split]].
        * constructor.
          -- cbn. split; [reflexivity|]. split.
             ++ apply deq_trans' with (d_scale alpha (read h1 i)); [apply feq_deq, scale_feq, FU; cbn; auto|apply feq_deq, feq_sym, Vn].
             ++ rewrite Ef. split; [pose proof (ext_len X1); lia|]. exists (h_n h1). split; [exact Mn|apply X1].
          -- clear - V1 L1 Fn MP X2. assert (L1' : forall e, In e r -> snd e < length (h_win h1)) by (intros [k' n'] He; apply (L1 k' n' He)). clear L1. induction V1 as [|e e' l l' (A & D & B) V IH]; constructor.
             ++ split; [exact A|]. split; [apply deq_trans' with (read h1 (snd e')); [exact D|apply feq_deq, Fn, L1'; left; reflexivity]|].
                destruct (snd e) as [a|a|a b|c' a]; cbn in *; auto. destruct (fresh c' a); auto. rewrite MP by (apply L1'; left; reflexivity). exact B.
             ++ apply IH. intros; apply L1'; right; assumption.
        * intros i0 L0 W0. apply feq_trans with (read h1 i0); [apply F1; [exact L0|intros k' x' u Hk; apply (W0 k' x' u); right; exact Hk]|]. apply Fn. pose proof (ext_len X1). lia.
        * intros k' n' [[= <- <-]|Hn]; [exact Ln|]. pose proof (ext_len X2). specialize (L1 k' n' Hn). lia.
        * intros k1 n1 k2 n2 I1 I2. destruct I1 as [[= <- <-]|I1], I2 as [[= <- <-]|I2]; intros Q; auto; [symmetry in Q; destruct (OLD k2 n2 I2 Q)|destruct (OLD k1 n1 I1 Q)|]. rewrite !MP in Q by (first [apply (L1 k1 n1 I1)|apply (L1 k2 n2 I2)]). exact (M1 _ _ _ _ I1 I2 Q).
      + apply (PUT i (d_scale alpha (read h1 i)) (eval alpha h (Alone c i))); auto; cbn; rewrite ?Ef; auto; try (intros; left; reflexivity). apply feq_deq, scale_feq, FU; cbn; auto.
  Qed.
End P.
