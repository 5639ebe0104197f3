(** Lemmas about views. *)
From Verif Require Import Base Quantity QuantityProofs FlatMap SpecFlatMap FlatMapProofs FlatMapThms Ring Index SpecIndex IndexProofs
  Dense BTensor SpecBTensor LegsProofs BTensorProofs BTensorThms BTensorArith ArithProofs Tensordot Reshape SpecReshape ReshapeProofs View SpecView.
Set Implicit Arguments.

(** * Patterns *)
(** Sections and offsets of the fixed elements. *)
Fixpoint bpat (L : list (list nat)) (p : pattern) : pattern :=
  match L, p with l :: L', x :: p' => option_map (fun a => fst (find_section l a)) x :: bpat L' p' | _, _ => [] end.
Fixpoint opat (L : list (list nat)) (p : pattern) : pattern :=
  match L, p with l :: L', x :: p' => option_map (fun a => snd (find_section l a)) x :: opat L' p' | _, _ => [] end.

Lemma pat_ok_resolves L p : pat_ok L p -> resolves L p (bpat L p) (opat L p).
Proof.
  revert p; induction L as [|l L IH]; intros [|[a|] p] H; cbn in *; try tauto.
  - destruct H as [H1 H2]. split; auto. apply find_section_spec; auto.
  - auto.
Qed.
Lemma resolves_unique L p bp op : resolves L p bp op -> bp = bpat L p /\ op = opat L p.
Proof.
  revert p bp op; induction L as [|l L IH]; intros [|[a|] p] [|[b|] bp] [|[o|] op] H; cbn in H |- *; try tauto.
  - destruct H as [H1 H2]. rewrite (find_section_unique H1). destruct (IH _ _ _ H2). subst. auto.
  - destruct (IH _ _ _ H). subst. auto.
Qed.
Lemma resolves_ok L p bp op : resolves L p bp op -> pat_ok L p.
Proof.
  revert p bp op; induction L as [|l L IH]; intros [|[a|] p] [|[b|] bp] [|[o|] op] H; cbn in H |- *; try tauto.
  - destruct H as [H1 H2]. split; [eapply located_lt; eauto|eauto].
  - eauto.
Qed.
Lemma pat_ok_length L p : pat_ok L p -> length p = length L.
Proof. revert p; induction L as [|l L IH]; intros [|[a|] p] H; cbn in *; try tauto; f_equal; apply IH; tauto. Qed.
Lemma resolves_length L p bp op : resolves L p bp op -> length p = length L /\ length bp = length L /\ length op = length L.
Proof.
  revert p bp op; induction L as [|l L IH]; intros [|[a|] p] [|[b|] bp] [|[o|] op] H; cbn in H |- *; try tauto;
    [destruct H as [_ H]|]; destruct (IH _ _ _ H) as (A & B & C); repeat split; congruence.
Qed.
Lemma resolves_keep L p bp op A (l : list A) : resolves L p bp op -> keep bp l = keep p l /\ keep op l = keep p l.
Proof.
  revert p bp op l; induction L as [|x L IH]; intros [|[a|] p] [|[b|] bp] [|[o|] op] l H; cbn in H; try tauto; auto;
    (destruct l as [|y l]; [auto|]); cbn [keep].
  - apply IH; tauto.
  - destruct (IH _ _ _ l H) as [-> ->]. auto.
Qed.
Lemma keep_map A B (f : A -> B) p l : keep p (map f l) = map f (keep p l).
Proof. revert l; induction p as [|[a|] p IH]; intros [|x l]; cbn; auto. rewrite IH. auto. Qed.
Lemma keep_length A B (l : list A) (m : list B) p : length l = length m -> length (keep p l) = length (keep p m).
Proof. revert l m; induction p as [|[a|] p IH]; intros [|x l] [|y m] H; cbn in *; try discriminate; auto. Qed.
Lemma keep_in A p (l : list A) x : In x (keep p l) -> In x l.
Proof. revert l; induction p as [|[a|] p IH]; intros [|y l]; cbn; auto; try tauto. intros [->|H]; auto. Qed.
Lemma fill_length p i : length (fill p i) = length p.
Proof. revert i; induction p as [|[a|] p IH]; intros [|x i]; cbn; auto. Qed.
Lemma keep_fill p i : length i = length (keep p p) -> keep p (fill p i) = i.
Proof. revert i; induction p as [|[a|] p IH]; intros [|x i] H; cbn in *; try discriminate; auto. rewrite IH; auto. Qed.

Lemma fill_range L p bp op k : resolves L p bp op -> length k = length (keep p L) ->
  in_range (lens L) (fill bp k) = in_range (lens (keep p L)) k.
Proof.
  unfold lens. revert p bp op k; induction L as [|l L IH]; intros [|[a|] p] [|[b|] bp] [|[o|] op] k H Hk; cbn in H; try tauto.
  - destruct k; [reflexivity|discriminate].
  - destruct H as [(H1 & _) H2]. cbn [keep map] in *. cbn [fill]. cbn [in_range]. rewrite (IH _ _ _ _ H2 Hk).
    apply Nat.ltb_lt in H1. rewrite H1. reflexivity.
  - cbn [keep map] in *. destruct k as [|x k]; [discriminate|]. cbn [fill in_range]. rewrite (IH _ _ _ k H); auto.
Qed.
Lemma fill_range_off L p bp op k o : resolves L p bp op -> length k = length (keep p L) -> length o = length (keep p L) ->
  in_range (pick 0 L (fill bp k)) (fill op o) = in_range (pick 0 (keep p L) k) o.
Proof.
  revert p bp op k o; induction L as [|l L IH]; intros [|[a|] p] [|[b|] bp] [|[oo|] op] k o H Hk Ho; cbn in H; try tauto.
  - destruct k, o; try discriminate; reflexivity.
  - destruct H as [(_ & H1 & _) H2]. cbn [keep] in *. cbn [fill pick in_range]. rewrite (IH _ _ _ _ _ H2 Hk Ho).
    apply Nat.ltb_lt in H1. rewrite H1. reflexivity.
  - cbn [keep] in *. destruct k as [|x k]; [discriminate|]. destruct o as [|y o]; [discriminate|].
    cbn [fill pick in_range]. rewrite (IH _ _ _ k o H); auto.
Qed.
Lemma fill_place L p bp op k o : resolves L p bp op -> length k = length (keep p L) -> length o = length (keep p L) ->
  place L (fill bp k) (fill op o) = fill p (place (keep p L) k o).
Proof.
  revert p bp op k o; induction L as [|l L IH]; intros [|[a|] p] [|[b|] bp] [|[oo|] op] k o H Hk Ho; cbn in H; try tauto.
  - destruct H as [(_ & _ & H1) H2]. cbn [keep] in *. cbn [fill place]. rewrite (IH _ _ _ _ _ H2 Hk Ho), <- H1. reflexivity.
  - cbn [keep] in *. destruct k as [|x k]; [discriminate|]. destruct o as [|y o]; [discriminate|].
    cbn [fill place]. rewrite (IH _ _ _ k o H); auto.
Qed.
Lemma keep_pick A (d : A) L p k : length p = length L -> length k = length (keep p L) ->
  keep p (pick d L (fill p k)) = pick d (keep p L) k.
Proof.
  revert p k; induction L as [|l L IH]; intros [|[a|] p] k Hp Hk; try discriminate; auto; cbn [keep] in Hk.
  - cbn [fill pick keep]. apply IH; auto.
  - destruct k as [|x k]; [discriminate|]. cbn [fill pick keep]. rewrite IH; auto.
Qed.

(** * The torch calls are dense indexing *)
Lemma t_expand_fill p i : t_expand p i = fill p i.
Proof. revert i; induction p as [|[a|] p IH]; intros [|x i]; cbn; rewrite ?IH; auto. Qed.
Lemma t_rest_keep A p (l : list A) : t_rest p l = keep p l.
Proof. revert l; induction p as [|[a|] p IH]; intros [|x l]; cbn; rewrite ?IH; auto. Qed.
Lemma t_hits_fill p i : t_hits p i = true <-> length i = length p /\ i = fill p (keep p i).
Proof.
  revert i; induction p as [|[a|] p IH]; intros [|x i]; cbn [t_hits keep fill length].
  - tauto.
  - split; [discriminate|intros [H _]; discriminate].
  - split; [discriminate|intros [H _]; discriminate].
  - rewrite andb_true_iff, Nat.eqb_eq, IH. split; [intros [-> [A B]]; split; congruence|intros [A B]; injection A; injection B; auto].
  - split; [discriminate|intros [H _]; discriminate].
  - rewrite IH. split; [intros [A B]; split; congruence|intros [A B]; injection A; injection B; auto].
Qed.
Lemma t_hits_of_fill p k : t_hits p (fill p k) = true.
Proof. revert k; induction p as [|[a|] p IH]; intros k; [reflexivity| |destruct k; apply IH].
  cbn. rewrite Nat.eqb_refl, IH. reflexivity.
Qed.
Lemma on_slice_hits p i : length i = length p -> on_slice p i = t_hits p i.
Proof. revert i; induction p as [|[a|] p IH]; intros [|x i] H; try discriminate; cbn; auto. rewrite IH; auto. Qed.
Definition zel (p : pattern) : list (option Z) := map (option_map Z.of_nat) p.
Lemma wrap_nat s o : o < s -> wrap s (Z.of_nat o) = Some o.
Proof.
  intros H. unfold wrap. destruct (Z.ltb_spec (Z.of_nat o) 0); [lia|].
  destruct (Z.leb_spec 0 (Z.of_nat o)); [|lia]. destruct (Z.ltb_spec (Z.of_nat o) (Z.of_nat s)); [|lia]. cbn. rewrite Nat2Z.id. auto.
Qed.
Lemma t_positions_ok L p bp op k : resolves L p bp op -> length k = length (keep p L) ->
  t_positions (pick 0 L (fill bp k)) (zel op) = Ok op.
Proof.
  revert p bp op k; induction L as [|l L IH]; intros [|[a|] p] [|[b|] bp] [|[o|] op] k H Hk; cbn in H; try tauto; auto.
  - destruct H as [(_ & H1 & _) H2]. cbn [keep] in *. cbn [fill pick zel map option_map t_positions].
    rewrite wrap_nat by auto. fold (zel op). rewrite (IH _ _ _ _ H2 Hk). reflexivity.
  - cbn [keep] in *. destruct k as [|x k]; [discriminate|]. cbn [fill pick zel map option_map t_positions]. fold (zel op).
    rewrite (IH _ _ _ k H) by auto. reflexivity.
Qed.
Lemma lexb_keep p a b : t_hits p a = true -> t_hits p b = true -> lexb (keep p a) (keep p b) = lexb a b.
Proof.
  revert a b; induction p as [|[c|] p IH]; intros [|x a] [|y b] Ha Hb; try discriminate; auto; cbn [t_hits keep lexb] in *.
  - apply andb_true_iff in Ha as [Ha Ha']. apply andb_true_iff in Hb as [Hb Hb']. apply Nat.eqb_eq in Ha, Hb. subst.
    rewrite Nat.ltb_irrefl, Nat.eqb_refl. cbn. auto.
  - rewrite IH; auto.
Qed.

(** * Numbered dimensions *)
Lemma numbered_rfold S A B (X : list A) (d : A) (h : S -> A -> B -> result S) dims : forall pre s,
  length X = length dims ->
  rfold (fun s '(i, a) => h s (nth i (pre ++ X) d) a) (combine (seq (length pre) (length dims)) dims) s =
  rfold (fun s '(x, a) => h s x a) (combine X dims) s.
Proof.
  revert X; induction dims as [|a dims IH]; intros [|x X] pre s H; try discriminate; auto.
  cbn [length seq combine rfold]. rewrite app_nth2, Nat.sub_diag by lia. cbn [nth]. destruct (h s x a); cbn [rbind]; auto.
  specialize (IH X (pre ++ [x])). rewrite <- app_assoc, app_length in IH. cbn [app length] in IH.
  replace (length pre + 1) with (Datatypes.S (length pre)) in IH by lia. apply IH. auto.
Qed.
Lemma rfold_ext S A (f g : S -> A -> result S) l : (forall s a, In a l -> f s a = g s a) -> forall s, rfold f l s = rfold g l s.
Proof.
  induction l as [|a l IH]; intros H s; auto. cbn. rewrite H by (left; auto). destruct (g s a); cbn; auto.
  apply IH. intros; apply H; right; auto.
Qed.
Lemma numbered_in dims i a : In (i, a) (numbered dims) -> i < length dims /\ nth i dims 0%Z = a.
Proof.
  unfold numbered. intros H. apply (In_nth _ _ (0, 0%Z)) in H as (n & Hn & E). rewrite combine_length, seq_length, Nat.min_id in Hn.
  rewrite combine_nth in E by apply seq_length. rewrite seq_nth in E by auto. injection E as <- <-. auto.
Qed.
Lemma numbered_map A B (X : list A) (d : A) (g : A -> Z -> B) dims : length X = length dims ->
  map (fun '(i, a) => g (nth i X d) a) (numbered dims) = map2 g X dims.
Proof.
  unfold numbered. assert (H : forall pre, length X = length dims ->
    map (fun '(i, a) => g (nth i (pre ++ X) d) a) (combine (seq (length pre) (length dims)) dims) = map2 g X dims).
  { revert X; induction dims as [|a dims IH]; intros [|x X] pre HL; try discriminate; auto.
    cbn [length seq combine map map2]. rewrite app_nth2, Nat.sub_diag by lia. cbn [nth]. f_equal.
    specialize (IH X (pre ++ [x])). rewrite <- app_assoc, app_length in IH. cbn [app length] in IH.
    replace (length pre + 1) with (Datatypes.S (length pre)) in IH by lia. apply IH. auto. }
  apply (H []).
Qed.
(** Filtering the numbered dimensions and looking up gives the kept entries. *)
Lemma numbered_keep A (X : list A) (d : A) (t : Z -> bool) p : length X = length p ->
  t (-1)%Z = true -> (forall a : nat, t (Z.of_nat a) = false) ->
  map (fun '(i, _) => nth i X d) (filter (fun '(_, a) => t a) (numbered (zpat p))) = keep p X.
Proof.
  intros HL T1 T2. unfold numbered. assert (H : forall pre, length X = length p ->
    map (fun '(i, _) => nth i (pre ++ X) d) (filter (fun '(_, a) => t a) (combine (seq (length pre) (length (zpat p))) (zpat p))) = keep p X).
  { clear HL. revert X; induction p as [|o p IH]; intros [|x X] pre HL; try discriminate; auto.
    cbn [zpat map length seq combine filter]. specialize (IH X (pre ++ [x])). rewrite <- app_assoc, app_length in IH. cbn [app length] in IH.
    replace (length pre + 1) with (Datatypes.S (length pre)) in IH by lia. fold (zpat p).
    destruct o as [a|]; cbn [keep].
    - rewrite T2. apply IH. auto.
    - rewrite T1. cbn [map]. rewrite app_nth2, Nat.sub_diag by lia. cbn [nth]. f_equal. apply IH. auto. }
  apply (H []). auto.
Qed.
Lemma zpat_length p : length (zpat p) = length p.
Proof. apply map_length. Qed.
Lemma zpat_nth p i : i < length p -> nth i (zpat p) 0%Z = match nth i p None with None => (-1)%Z | Some a => Z.of_nat a end.
Proof. revert i; induction p as [|x p IH]; intros [|i] H; cbn in H |- *; try lia; auto. apply IH. lia. Qed.
Lemma z_section_nat l a : z_section l (Z.of_nat a) = fst (find_section l a).
Proof. unfold z_section. destruct (Z.ltb_spec (Z.of_nat a) 0); [lia|]. rewrite Nat2Z.id. auto. Qed.
Lemma z_offset_nat l a : z_offset l (Z.of_nat a) = Z.of_nat (snd (find_section l a)).
Proof. unfold z_offset. destruct (Z.ltb_spec (Z.of_nat a) 0); [lia|]. rewrite Nat2Z.id. auto. Qed.
Lemma zneg1 a : (Z.of_nat a =? -1)%Z = false.
Proof. apply Z.eqb_neq. lia. Qed.

Lemma nth_firstn_lt' A (d : A) l n i : i < n -> nth i (firstn n l) d = nth i l d.
Proof. revert l i; induction n as [|n IH]; intros [|x l] [|i] H; cbn; auto; try lia. apply IH. lia. Qed.
Lemma nth_skipn' A (d : A) l n i : nth i (skipn n l) d = nth (n + i) l d.
Proof. revert l; induction n as [|n IH]; intros [|x l]; cbn; auto. destruct i; auto. Qed.

Lemma concat_lens A (L : list (list A)) : length (concat L) = sum_list (map (@length A) L).
Proof. induction L as [|l L IH]; cbn; auto. rewrite app_length, IH. reflexivity. Qed.

Section P.
  Context {G : abgroup} {R : ring}.
  Implicit Types T V : btensor G R.
  Notation entry := (list nat * dense R)%type.
  Notation KO := key_order_idx.

  Lemma to_block_basis_spec T p : meta_ok T -> pat_ok (legs T) p ->
    to_block_basis T (zpat p) = (bpat (legs T) p, zel (opat (legs T) p)).
  Proof.
    intros HM HP. pose proof (legs_length HM) as LL. pose proof HM as [M1 _]. pose proof (pat_ok_length _ _ HP) as PL.
    assert (HX : length (legs T) = length (zpat p)) by (rewrite zpat_length; congruence).
    assert (HR : forall i a, In (i, a) (numbered (zpat p)) -> prange (b_sbd T) (b_ss T) i = nth i (legs T) []).
    { intros i a Hi. apply numbered_in in Hi as [Hi _]. apply prange_unpack. lia. }
    unfold to_block_basis. f_equal.
    - transitivity (map (fun '(i, a) => (fun l a => if (a =? -1)%Z then None else Some (z_section l a)) (nth i (legs T) []) a) (numbered (zpat p))).
      { apply map_ext_in. intros [i a] Hi. rewrite (HR i a Hi). reflexivity. }
      rewrite (numbered_map (legs T) [] (fun l a => if (a =? -1)%Z then None else Some (z_section l a))) by auto.
      clear. revert p; induction (legs T) as [|l L IH]; intros [|[a|] p]; auto; cbn [zpat map map2 bpat option_map]; fold (zpat p); rewrite IH; auto.
      rewrite zneg1, z_section_nat. auto.
    - transitivity (map (fun '(i, a) => (fun l a => if (a =? -1)%Z then None else Some (z_offset l a)) (nth i (legs T) []) a) (numbered (zpat p))).
      { apply map_ext_in. intros [i a] Hi. rewrite (HR i a Hi). reflexivity. }
      rewrite (numbered_map (legs T) [] (fun l a => if (a =? -1)%Z then None else Some (z_offset l a))) by auto.
      clear. revert p; induction (legs T) as [|l L IH]; intros [|[a|] p]; auto; cbn [zpat map map2 opat option_map zel]; fold (zpat p);
        fold (zel (opat L p)); rewrite IH; auto. rewrite zneg1, z_offset_nat. auto.
  Qed.

  (** The section read in dimension [i], as an entry of the leg. *)
  Lemma section_qtt_nth T i b : meta_ok T -> i < b_rank T -> b < nth i (b_sbd T) 0 ->
    section_conserved_qtt T i b = Ok (nth b (nth i (qlegs T) []) (qe G)).
  Proof.
    intros HM Hi Hb. pose proof HM as (M1 & M2 & M3). pose proof (qlegs_length HM) as LQ.
    unfold section_conserved_qtt. rewrite rnth_Ok with (d := qe G).
    - f_equal. unfold qlegs. rewrite <- prange_unpack by lia. unfold prange, address.
      rewrite nth_firstn_lt', nth_skipn' by auto. reflexivity.
    - rewrite <- M3. apply address_lt; auto. lia.
  Qed.

  (** Quantities at a filled block index: the kept and the fixed ones. *)
  Lemma qprod_fill (Q : list (list G)) bp k : length bp = length Q -> length k = length (keep bp Q) ->
    qprod G (pick (qe G) Q (fill bp k)) = qop G (qprod G (pick (qe G) (keep bp Q) k)) (qprod G (fixed (qe G) bp Q)).
  Proof.
    revert bp k; induction Q as [|q Q IH]; intros [|[b|] bp] k Hb Hk; try discriminate; cbn [keep] in Hk.
    - cbn. rewrite qop_e_l. reflexivity.
    - cbn [fill pick keep fixed]. change (qprod G (?a :: ?l)) with (qop G a (qprod G l)). rewrite IH by auto.
      generalize (nth b q (qe G)) (qprod G (pick (qe G) (keep bp Q) k)) (qprod G (fixed (qe G) bp Q)). intros x y z.
      rewrite !qop_assoc, (qop_comm G x y). reflexivity.
    - destruct k as [|x k]; [discriminate|]. cbn [fill pick keep fixed].
      change (qprod G (?a :: ?l)) with (qop G a (qprod G l)). rewrite IH by auto. rewrite qop_assoc. reflexivity.
  Qed.

  Definition view_rule T p : G := qop G (b_rule T) (qinv G (qprod G (fixed (qe G) (bpat (legs T) p) (qlegs T)))).
  Definition view_shape T p : btensor G R :=
    @mkB G R (view_rule T p) (length (keep p (b_sbd T))) (keep p (b_sbd T)) (concat (keep p (legs T))) (concat (keep p (qlegs T))) [].

  Lemma rule_fold (L : list (list nat)) (Q : list (list G)) p r : length L = length Q -> pat_ok L p ->
    fold_left (fun r '((l, q), a) => if (a <? 0)%Z then r else qop G r (qinv G (nth (z_section l a) q (qe G)))) (combine (combine L Q) (zpat p)) r
    = qop G r (qinv G (qprod G (fixed (qe G) (bpat L p) Q))).
  Proof.
    revert Q p r; induction L as [|l L IH]; intros [|q Q] [|[a|] p] r HL HP; cbn in HP; try discriminate; try tauto.
    - cbn. rewrite qinv_e, qop_e_r. reflexivity.
    - cbn [combine zpat map fold_left bpat option_map fixed]. fold (zpat p). destruct (Z.ltb_spec (Z.of_nat a) 0); [lia|].
      rewrite IH by (auto; tauto). rewrite z_section_nat. change (qprod G (?a :: ?l)) with (qop G a (qprod G l)).
      rewrite qinv_op, qop_assoc. reflexivity.
    - cbn [combine zpat map fold_left bpat option_map fixed]. fold (zpat p). change ((-1 <? 0)%Z) with true. cbn [fst snd]. apply IH; auto.
  Qed.

  Lemma shape_from_eq T p : meta_ok T -> pat_ok (legs T) p -> (forall n, In n (b_sbd T) -> 0 < n) ->
    shape_from T (zpat p) = make (view_shape T p).
  Proof.
    intros HM HP Hpos. pose proof HM as (M1 & M2 & M3). pose proof (legs_length HM) as LL. pose proof (qlegs_length HM) as LQ.
    pose proof (legs_lens HM) as NL. pose proof (qlegs_lens HM) as NQ. pose proof (pat_ok_length _ _ HP) as PL.
    unfold shape_from. rewrite zpat_length, PL, LL, Nat.eqb_refl. cbn [negb].
    replace (forallb _ (combine (zpat p) (sizes T))) with true.
    2:{ rewrite sizes_tots by auto. clear - HP. unfold tots. revert p HP; induction (legs T) as [|l L IH]; intros [|[a|] p] HP; cbn in HP; try tauto; auto.
        - cbn [zpat map combine forallb]. fold (zpat p). rewrite <- (IH p) by tauto. destruct HP as [HP _].
          destruct (Z.ltb_spec (Z.of_nat a) (Z.of_nat (sum_list l))); [reflexivity|lia].
        - cbn [zpat map combine forallb]. fold (zpat p). rewrite <- (IH p) by tauto. rewrite orb_true_r. reflexivity. }
    cbn [negb]. set (X := combine (legs T) (qlegs T)).
    assert (HX : length X = length (zpat p)) by (unfold X; rewrite combine_length, zpat_length; lia).
    set (h := fun (r : G) (x : list nat * list G) (a : Z) =>
      Ok (if (a <? 0)%Z then r else qop G r (qinv G (nth (z_section (fst x) a) (snd x) (qe G))))).
    rewrite (@rfold_ext G (nat * Z) _ (fun s '(i, a) => h s (nth i X ([], [])) a)).
    2:{ intros r [i a] Hi. pose proof Hi as Hi'. apply numbered_in in Hi as [Hi Ha]. rewrite zpat_length in Hi.
        rewrite prange_unpack by lia. fold (legs T). unfold h, X. rewrite combine_nth by lia. cbn [fst snd].
        assert (Hz : z_section (nth i (legs T) []) a < nth i (b_sbd T) 0).
        { assert (Hn : length (nth i (legs T) []) = nth i (b_sbd T) 0).
          { rewrite <- NL. unfold lens. change 0 with (length (@nil nat)). rewrite map_nth. reflexivity. }
          rewrite zpat_nth in Ha by auto. destruct (nth i p None) as [b|] eqn:E.
          - subst a. rewrite z_section_nat.
            assert (Hlt : b < sum_list (nth i (legs T) [])).
            { clear - HP E. revert p i HP E; induction (legs T) as [|l L IH]; intros [|[c|] p] [|i] HP E; cbn in HP, E |- *; try discriminate; try tauto.
              - injection E as ->. tauto.
              - apply (IH p); tauto.
              - apply (IH p); auto. }
            apply find_section_spec in Hlt as [Hlt _]. lia.
          - subst a. change (z_section _ (-1)) with 0. apply Hpos. apply nth_In. lia. }
        rewrite section_qtt_nth by (auto; lia). reflexivity. }
    unfold numbered at 1. pose proof (@numbered_rfold _ _ _ X ([], []) h (zpat p) [] (b_rule T) HX) as HR. cbn [length app] in HR. rewrite HR. clear HR.
    rewrite (rfold_pure _ (fun r '((l, q), a) => if (a <? 0)%Z then r else qop G r (qinv G (nth (z_section l a) q (qe G))))).
    2:{ intros r [[l q] a] _. reflexivity. }
    unfold X. rewrite rule_fold by (auto; lia). cbn [rbind].
    rewrite (rmapM_pure _ (fun '(i, _) => nth i (b_sbd T) 0)).
    2:{ intros [i a] Hi. apply filter_In in Hi as [Hi _]. apply numbered_in in Hi as [Hi _]. rewrite zpat_length in Hi. apply rnth_Ok. lia. }
    cbn [rbind]. rewrite (numbered_keep (b_sbd T) 0 (fun a => (a <? 0)%Z)) by (first [lia|reflexivity|intros a; destruct (Z.ltb_spec (Z.of_nat a) 0); [lia|reflexivity]]).
    assert (HF : forall A (c : list A), sum_list (b_sbd T) = length c ->
      flat_map (fun '(i, _) => prange (b_sbd T) c i) (filter (fun '(_, a) => (a =? -1)%Z) (numbered (zpat p))) = concat (keep p (unpack (b_sbd T) c))).
    { intros A c Hc. rewrite flat_map_concat_map. f_equal.
      rewrite <- (numbered_keep (unpack (b_sbd T) c) [] (fun a => (a =? -1)%Z)); [|rewrite unpack_length; lia|reflexivity|apply zneg1].
      apply map_ext_in. intros [i a] Hi. apply filter_In in Hi as [Hi _]. apply numbered_in in Hi as [Hi _]. rewrite zpat_length in Hi.
      apply prange_unpack. lia. }
    rewrite !HF by auto. fold (legs T) (qlegs T).
    assert (S1 : length (concat (keep p (legs T))) = sum_list (keep p (b_sbd T))).
    { rewrite <- NL. unfold lens. rewrite keep_map. apply concat_lens. }
    assert (S2 : length (concat (keep p (qlegs T))) = sum_list (keep p (b_sbd T))).
    { rewrite <- NQ. unfold lens. rewrite keep_map. apply concat_lens. }
    rewrite S1, S2, Nat.sub_diag. cbn [repeat]. rewrite !app_nil_r. reflexivity.
  Qed.
End P.
