From Verif Require Import Base Quantity QuantityProofs FlatMap SpecFlatMap FlatMapProofs FlatMapThms Ring Index SpecIndex IndexProofs
  Dense BTensor SpecBTensor LegsProofs BTensorProofs BTensorThms BTensorArith ArithProofs Tensordot.
From Coq Require Import Permutation Sorted.
Set Implicit Arguments.
Notation KO := key_order_idx.

(** *** Lexicographic order and prefixes *)
Lemma lexb_app p q s t : length p = length q -> lexb (p ++ s) (q ++ t) = lexb p q || (leqb p q && lexb s t).
Proof.
  revert q; induction p as [|x p IH]; destruct q as [|y q]; cbn; intros H; try lia; auto.
  rewrite IH by lia. destruct (Nat.eqb_spec x y) as [->|]; cbn; rewrite ?Nat.ltb_irrefl; cbn; auto.
  rewrite !andb_false_l || idtac. destruct (x <? y); auto.
Qed.
Lemma leqb_sym a b : leqb a b = leqb b a.
Proof. destruct (leqb a b) eqn:E; symmetry; [apply leqb_eq in E; subst; apply leqb_refl|]. apply leqb_neq in E. apply leqb_neq. auto. Qed.
Lemma lexb_asym a b : lexb a b = true -> lexb b a = false.
Proof. intros H. destruct (lexb b a) eqn:E; auto. rewrite <- (lexb_irrefl a). symmetry. eapply lexb_trans; eauto. Qed.
Lemma lexb_ne a b : lexb a b = true -> a <> b.
Proof. intros H ->. rewrite lexb_irrefl in H. discriminate. Qed.

Section Split.
  Variable m : nat.
  Notation tl_ := (tail_of m).
  Notation hd_ := (head_of m).
  Lemma head_tail k : hd_ k ++ tl_ k = k. Proof. apply firstn_skipn. Qed.
  Lemma tail_len k : m <= length k -> length (tl_ k) = m.
  Proof. intros H. unfold tail_of. rewrite skipn_length. lia. Qed.
  Lemma head_len k : length (hd_ k) = length k - m.
  Proof. unfold head_of. rewrite firstn_length. lia. Qed.
  Lemma head_app f c : length c = m -> hd_ (f ++ c) = f.
  Proof. intros H. unfold head_of. rewrite app_length. replace (length f + length c - m) with (length f) by lia. apply firstn_mid. Qed.
  Lemma tail_app f c : length c = m -> tl_ (f ++ c) = c.
  Proof. intros H. unfold tail_of. rewrite app_length. replace (length f + length c - m) with (length f) by lia. apply skipn_mid. Qed.
End Split.

Lemma upd_app A (a : list A) x b y : upd (a ++ x :: b) (length a) y = a ++ y :: b.
Proof. unfold upd. rewrite firstn_mid, skipn_mid1. reflexivity. Qed.

(** [next_index] separates the keys with the same head from the larger ones. *)
Lemma next_index_sep imax m k k0 : length k = length k0 -> m <= length k0 -> 0 < length k0 ->
  (forall x, In x k -> x < imax) -> k = k0 \/ lexb k0 k = true ->
  lexb k (next_index imax m k0) = leqb (head_of m k) (head_of m k0).
Proof.
  intros HL Hm H0 HX HO. unfold next_index. destruct k0 as [|z k0']; [cbn in H0; lia|]. set (k0 := z :: k0') in *.
  destruct (Nat.eqb_spec m 0) as [->|Hm0].
  - unfold head_of. rewrite !Nat.sub_0_r, !firstn_all.
    destruct (exists_last (l := k0)) as [p [x E]]; [discriminate|]. rewrite E in *. clear E k0 z k0'.
    rewrite app_length in *. cbn [length] in *. replace (length p + 1 - 1) with (length p) by lia. rewrite upd_app.
    rewrite app_nth2, Nat.sub_diag by lia. cbn [nth].
    destruct (exists_last (l := k)) as [q [y E]]; [destruct k; cbn in HL; [lia|discriminate]|]. rewrite E in *. clear k E HX.
    rewrite app_length in HL. cbn in HL. assert (HL' : length q = length p) by lia.
    rewrite lexb_app by auto. cbn [lexb]. rewrite andb_false_r, orb_false_r. rewrite lexb_app in HO by auto. cbn [lexb] in HO.
    rewrite andb_false_r, orb_false_r in HO.
    destruct HO as [HO|HO].
    + apply app_inj_tail in HO as [-> ->]. rewrite !leqb_refl. replace (x <? x + 1) with true by (symmetry; apply Nat.ltb_lt; lia).
      apply orb_true_r.
    + apply orb_true_iff in HO as [HO|HO].
      * rewrite (lexb_asym _ _ HO). cbn. pose proof (lexb_ne HO). assert (q <> p) by congruence.
        replace (leqb q p) with false by (symmetry; apply leqb_neq; auto). cbn. symmetry. apply leqb_neq. intros E.
        apply app_inj_tail in E as [-> _]. congruence.
      * apply andb_true_iff in HO as [E Hy]. apply leqb_eq in E. subst q. apply Nat.ltb_lt in Hy. rewrite lexb_irrefl, leqb_refl. cbn.
        replace (y <? x + 1) with false by (symmetry; apply Nat.ltb_ge; lia). symmetry. apply leqb_neq. intros E.
        apply app_inj_tail in E as [_ ->]. lia.
  - assert (HO' : head_of m k = head_of m k0 \/ lexb (head_of m k0) (head_of m k) = true).
    { destruct HO as [->|HO]; auto. rewrite <- (head_tail m k), <- (head_tail m k0) in HO. rewrite lexb_app in HO by (rewrite !head_len; lia).
      apply orb_true_iff in HO as [HO|HO]; auto. apply andb_true_iff in HO as [HO _]. apply leqb_eq in HO. auto. }
    clear HO. pose proof (tail_len (m := m) k0 Hm) as Ht0. pose proof (tail_len (m := m) k ltac:(lia)) as Ht.
    pose proof (head_len m k0) as Hh0. pose proof (head_len m k) as Hh.
    assert (HXt : forall x, In x (tail_of m k) -> x < imax).
    { intros x Hx. apply HX. rewrite <- (head_tail m k). apply in_or_app; auto. }
    rewrite <- (head_tail m k) at 1. rewrite <- Hh0. rewrite <- (head_tail m k0) at 1.
    destruct (tail_of m k0) as [|w t0] eqn:Et0; [cbn in Ht0; lia|].
    rewrite upd_app. rewrite lexb_app by lia.
    destruct (tail_of m k) as [|v t] eqn:Et; [cbn in Ht; lia|]. cbn [lexb].
    replace (v <? imax) with true by (symmetry; apply Nat.ltb_lt; apply HXt; left; auto). rewrite orb_true_l, andb_true_r.
    destruct (lexb (head_of m k) (head_of m k0)) eqn:E; auto. exfalso. destruct HO' as [HO|HO].
    + rewrite HO, lexb_irrefl in E. discriminate.
    + rewrite (lexb_asym _ _ E) in HO. discriminate.
Qed.

Section Lists.
  Context {V : Type}.
  Implicit Types l : list (list nat * V).

  Lemma lower_bound_filter k l : sorted lexb l ->
    firstn (lower_bound lexb k l) l = filter (fun e => lexb (fst e) k) l /\
    skipn (lower_bound lexb k l) l = filter (fun e => negb (lexb (fst e) k)) l.
  Proof.
    intros HS. induction l as [|e l IH]; [split; reflexivity|]. apply (sorted_cons _) in HS as [Hg HS]. cbn [lower_bound filter].
    destruct (lexb (fst e) k) eqn:E; cbn [firstn skipn negb].
    - destruct (IH HS) as [-> ->]. auto.
    - assert (HF : forall x, In x l -> lexb (fst x) k = false).
      { intros x Hx. destruct (lexb (fst x) k) eqn:E2; auto. rewrite (lexb_trans _ _ _ (Hg x Hx) E2) in E. discriminate. }
      assert (F1 : filter (fun e => lexb (fst e) k) l = []).
      { clear -HF. induction l as [|x l IH]; auto. cbn. rewrite HF by (left; auto). apply IH. intros y Hy. apply HF; right; auto. }
      assert (F2 : filter (fun e => negb (lexb (fst e) k)) l = l).
      { clear -HF. induction l as [|x l IH]; auto. cbn. rewrite HF by (left; auto). cbn. f_equal. apply IH. intros y Hy. apply HF; right; auto. }
      rewrite F1, F2. auto.
  Qed.
  Lemma filter_ext_in' A (f g : A -> bool) (l : list A) : (forall x, In x l -> f x = g x) -> filter f l = filter g l.
  Proof. intros H. induction l as [|x l IH]; auto. cbn. rewrite (H x) by (left; auto). rewrite IH; auto. intros y Hy. apply H; right; auto. Qed.
  Lemma sorted_filter p l : sorted lexb l -> sorted lexb (filter p l).
  Proof.
    induction l as [|e l IH]; intros HS; auto. apply (sorted_cons _) in HS as [Hg HS]. cbn. destruct (p e); auto.
    apply (sorted_cons _). split; auto. intros x Hx. apply filter_In in Hx as [Hx _]. apply Hg; auto.
  Qed.
  Lemma filter_filter A (p q : A -> bool) (l : list A) : filter p (filter q l) = filter (fun x => p x && q x) l.
  Proof. induction l as [|x l IH]; auto. cbn. destruct (q x); cbn; rewrite ?andb_true_r, ?andb_false_r, IH; destruct (p x); auto. Qed.
  Lemma filter_len A (p : A -> bool) (l : list A) : length (filter p l) <= length l.
  Proof. induction l as [|x l IH]; cbn; auto. destruct (p x); cbn; lia. Qed.

  Definition col (m : nat) l (f : list nat) := filter (fun e => leqb (head_of m (fst e)) f) l.
  Definition rest (m : nat) l (f : list nat) := filter (fun e => negb (leqb (head_of m (fst e)) f)) l.

  Lemma split_col imax m n k0 v0 l : sorted lexb ((k0, v0) :: l) -> (forall e, In e ((k0, v0) :: l) -> length (fst e) = n /\ (forall x, In x (fst e) -> x < imax)) ->
    m <= n -> 0 < n ->
    let l0 := (k0, v0) :: l in
    let c := lower_bound lexb (next_index imax m k0) l0 in
    firstn c l0 = col m l0 (head_of m k0) /\ skipn c l0 = rest m l0 (head_of m k0) /\ length (rest m l0 (head_of m k0)) <= length l.
  Proof.
    intros HS HK Hm Hn l0 c. destruct (lower_bound_filter (next_index imax m k0) HS) as [E1 E2].
    assert (HE : forall e, In e l0 -> lexb (fst e) (next_index imax m k0) = leqb (head_of m (fst e)) (head_of m k0)).
    { intros e He. destruct (HK e He) as [H1 H2]. destruct (HK (k0, v0) (or_introl eq_refl)) as [H3 _]. cbn in H3.
      apply next_index_sep; auto; try lia. destruct He as [<-|He]; auto. right. apply (sorted_cons _) in HS as [Hg _]. apply Hg; auto. }
    split; [|split].
    - unfold c, l0. rewrite E1. apply filter_ext_in'. auto.
    - unfold c, l0. rewrite E2. apply filter_ext_in'. intros e He. f_equal. auto.
    - unfold rest, l0. cbn. rewrite leqb_refl. cbn. apply filter_len.
  Qed.

  Lemma assoc_none_lt k l : (forall e, In e l -> fst e <> k) -> assoc leqb k l = None.
  Proof.
    induction l as [|e l IH]; auto. intros H. cbn. replace (leqb (fst e) k) with false.
    - apply IH. intros x Hx. apply H; right; auto.
    - symmetry. apply leqb_neq. apply H; left; auto.
  Qed.
End Lists.

(** *** The matches of two columns *)
Section Match.
  Context {R : ring}.
  Notation entry := (list nat * dense R)%type.
  Variable m : nat.
  Implicit Types a b : list entry.

  (** The column entries keyed by the contracted part of their index. *)
  Definition tails a : list entry := map (fun e => (tail_of m (fst e), snd e)) a.
  Definition matches a b : list (dense R * dense R) :=
    flat_map (fun ea => match assoc leqb (fst ea) (tails b) with Some t => [(snd ea, t)] | None => [] end) (tails a).
  Notation srt a := (sorted lexb (tails a)).

  Lemma srt_cons e a : srt (e :: a) <-> (forall x, In x a -> lexb (tail_of m (fst e)) (tail_of m (fst x)) = true) /\ srt a.
  Proof.
    unfold tails at 1. cbn [map]. rewrite sorted_cons. split; intros [H1 H2]; split; auto.
    - intros x Hx. apply (H1 (tail_of m (fst x), snd x)). apply in_map_iff. exists x; auto.
    - intros x Hx. apply in_map_iff in Hx as [y [<- Hy]]. apply H1; auto.
  Qed.
  Lemma fnm_eq a b : find_next_match m a b =
    match a, b with
    | ea :: a', eb :: b' =>
        if lexb (tail_of m (fst ea)) (tail_of m (fst eb)) then find_next_match m a' b
        else if lexb (tail_of m (fst eb)) (tail_of m (fst ea)) then find_next_match m a b'
        else (a, b)
    | _, _ => ([], [])
    end.
  Proof. destruct a, b; reflexivity. Qed.
  Lemma tails_lookup_none k b : (forall x, In x b -> tail_of m (fst x) <> k) -> assoc leqb k (tails b) = None.
  Proof. intros H. apply assoc_none_lt. intros e He. apply in_map_iff in He as [x [<- Hx]]. apply H; auto. Qed.
  Lemma matches_nil_r a : matches a [] = [].
  Proof. unfold matches. induction (tails a); auto. Qed.
  Lemma matches_skip_l ea a b : (forall x, In x b -> tail_of m (fst x) <> tail_of m (fst ea)) -> matches (ea :: a) b = matches a b.
  Proof. intros H. unfold matches. cbn [tails map flat_map fst]. rewrite tails_lookup_none by auto. reflexivity. Qed.
  Lemma matches_skip_r a eb b : (forall x, In x a -> tail_of m (fst x) <> tail_of m (fst eb)) -> matches a (eb :: b) = matches a b.
  Proof.
    intros H. unfold matches. rewrite !flat_map_concat_map. f_equal. apply map_ext_in. intros e He. apply in_map_iff in He as [x [<- Hx]].
    cbn [tails map assoc fst]. replace (leqb (tail_of m (fst eb)) (tail_of m (fst x))) with false; auto.
    symmetry. apply leqb_neq. intros E. apply (H x Hx). auto.
  Qed.

  Lemma fnm_spec a b : srt a -> srt b ->
    (find_next_match m a b = ([], []) /\ matches a b = []) \/
    exists ea a' eb b', find_next_match m a b = (ea :: a', eb :: b') /\ srt (ea :: a') /\ srt (eb :: b') /\ length a' < length a /\
      tail_of m (fst ea) = tail_of m (fst eb) /\ matches a b = (snd ea, snd eb) :: matches a' (eb :: b') /\
      incl (ea :: a') a /\ incl (eb :: b') b.
  Proof.
    revert b. induction a as [|ea a IHa]; intros b Ha Hb; [left; destruct b; auto|].
    induction b as [|eb b IHb]; [left; split; [reflexivity|apply matches_nil_r]|].
    rewrite fnm_eq. pose proof Ha as Ha'. pose proof Hb as Hb'. apply srt_cons in Ha' as [Ga Sa]. apply srt_cons in Hb' as [Gb Sb].
    destruct (lexb (tail_of m (fst ea)) (tail_of m (fst eb))) eqn:E1; [|destruct (lexb (tail_of m (fst eb)) (tail_of m (fst ea))) eqn:E2].
    - rewrite matches_skip_l.
      2:{ intros x [<-|Hx] E; [rewrite E, lexb_irrefl in E1; discriminate|]. pose proof (lexb_trans _ _ _ E1 (Gb x Hx)) as H. rewrite E, lexb_irrefl in H. discriminate. }
      destruct (IHa _ Sa Hb) as [[H1 H2]|(xa & a' & xb & b' & H1 & H2 & H3 & H4 & H5 & H6 & H7 & H8)]; [left; auto|right].
      exists xa, a', xb, b'. repeat split; auto; [cbn; lia|]. apply incl_tl; auto.
    - rewrite matches_skip_r.
      2:{ intros x [<-|Hx] E; [rewrite E, lexb_irrefl in E2; discriminate|]. pose proof (lexb_trans _ _ _ E2 (Ga x Hx)) as H. rewrite E, lexb_irrefl in H. discriminate. }
      destruct (IHb Sb) as [[H1 H2]|(xa & a' & xb & b' & H1 & H2 & H3 & H4 & H5 & H6 & H7 & H8)]; [left; auto|right].
      exists xa, a', xb, b'. repeat split; auto. apply incl_tl; auto.
    - right. pose proof (lexb_total _ _ E1 E2) as E. exists ea, a, eb, b. repeat split; auto using incl_refl.
      unfold matches. cbn [tails map flat_map fst]. cbn [assoc fst]. rewrite E, leqb_refl. reflexivity.
  Qed.

  Lemma matches_In a b x y : srt b -> In (x, y) (matches a b) <->
    exists ea eb, In ea a /\ In eb b /\ tail_of m (fst ea) = tail_of m (fst eb) /\ x = snd ea /\ y = snd eb.
  Proof.
    intros Hb. unfold matches. rewrite in_flat_map. split.
    - intros [e [He Hi]]. apply in_map_iff in He as [ea [<- Ha]]. cbn [fst snd] in Hi.
      destruct (assoc leqb (tail_of m (fst ea)) (tails b)) as [t|] eqn:E; [|destruct Hi]. destruct Hi as [[= <- <-]|[]].
      apply (assoc_In KO) in E. apply in_map_iff in E as [eb [[= E1 E2] He]]. exists ea, eb. repeat split; auto.
    - intros (ea & eb & Ha & Hb' & E & -> & ->). exists (tail_of m (fst ea), snd ea). split; [apply in_map_iff; exists ea; auto|]. cbn [fst snd].
      assert (Hi : In (tail_of m (fst ea), snd eb) (tails b)) by (apply in_map_iff; exists eb; rewrite E; auto).
      apply (In_assoc KO) in Hi; auto. rewrite Hi. left; auto.
  Qed.

  (** Value of the sum of products. *)
  Definition mmv (p : dense R * dense R) (i j : nat) : R :=
    sumf R (fun c => rmul (dv (fst p) [i; c]) (dv (snd p) [c; j])) (seq 0 (nth 1 (dsh (fst p)) 0)).
  Definition fits (x y : nat) (p : dense R * dense R) : Prop := exists k, dsh (fst p) = [x; k] /\ dsh (snd p) = [k; y].

  Lemma mm_spec x y p : fits x y p -> exists d, t_mm (fst p) (snd p) = Ok d /\ dsh d = [x; y] /\ forall i j, dv d [i; j] = mmv p i j.
  Proof.
    intros [k [E1 E2]]. unfold t_mm. rewrite E1, E2, Nat.eqb_refl. eexists. split; [reflexivity|]. split; auto. intros i j. cbn.
    unfold mmv. rewrite E1. reflexivity.
  Qed.
  Lemma addmm_spec x y p d : fits x y p -> dsh d = [x; y] ->
    exists d', t_addmm d (fst p) (snd p) = Ok d' /\ dsh d' = [x; y] /\ forall i j, dv d' [i; j] = radd (dv d [i; j]) (mmv p i j).
  Proof.
    intros H E. destruct (mm_spec H) as [q [H1 [H2 H3]]]. unfold t_addmm. rewrite H1. cbn [rbind]. rewrite E, H2, leqb_refl.
    eexists. split; [reflexivity|]. split; [auto|]. intros i j. cbn. rewrite H3. reflexivity.
  Qed.
  Add Ring Rr : (ring_th R).
  Lemma addmm_loop_spec x y fuel d a b : srt a -> srt b -> length a < fuel -> dsh d = [x; y] -> Forall (fits x y) (matches a b) ->
    exists d', addmm_loop m fuel d a b = Ok d' /\ dsh d' = [x; y] /\
      forall i j, dv d' [i; j] = radd (dv d [i; j]) (sumf R (fun p => mmv p i j) (matches a b)).
  Proof.
    revert d a b. induction fuel as [|fuel IH]; intros d a b Ha Hb Hf Hd HF; [lia|]. cbn [addmm_loop].
    destruct (fnm_spec a b Ha Hb) as [[H1 H2]|(ea & a' & eb & b' & H1 & H2 & H3 & H4 & H5 & H6 & _)]; rewrite H1.
    - exists d. split; auto. split; auto. intros i j. rewrite H2. cbn. ring.
    - rewrite H6 in HF. inversion HF as [|z r Hz Hr]; subst. destruct (addmm_spec _ Hz Hd) as [d1 [E1 [E2 E3]]]. cbn [fst snd] in E1.
      rewrite E1. cbn [rbind]. destruct (IH d1 a' (eb :: b')) as [d2 [F1 [F2 F3]]]; auto; [apply srt_cons in H2 as [_ H2]; auto|lia|].
      exists d2. split; auto. split; auto. intros i j. rewrite F3, E3, H6, sumf_cons. cbn. ring.
  Qed.
End Match.

(** *** The loops over columns *)
Section Cols.
  Context {G : abgroup} {R : ring}.
  Notation entry := (list nat * dense R)%type.
  Variable imax m : nat.
  Variable out : btensor G R.
  Implicit Types a b l : list entry.
  Notation srt a := (sorted lexb (tails m a)).

  Definition keys_ok (n : nat) l : Prop := forall e, In e l -> length (fst e) = n /\ (forall x, In x (fst e) -> x < imax).
  Lemma col_tails_sorted l n f : sorted lexb l -> keys_ok n l -> m <= n -> srt (col m l f).
  Proof.
    intros HS HK Hm. induction l as [|e l IH]; [constructor|]. apply (sorted_cons _) in HS as [Hg HS].
    assert (HK' : keys_ok n l) by (intros x Hx; apply HK; right; auto).
    unfold col. cbn [filter]. destruct (leqb (head_of m (fst e)) f) eqn:E; [|apply IH; auto].
    apply srt_cons. split; [|apply IH; auto]. intros x Hx. apply filter_In in Hx as [Hx Ex]. specialize (Hg x Hx).
    apply leqb_eq in E. apply leqb_eq in Ex. rewrite <- (head_tail m (fst e)), <- (head_tail m (fst x)), E, Ex in Hg.
    rewrite lexb_app, lexb_irrefl, leqb_refl in Hg by auto. exact Hg.
  Qed.
  Lemma keys_filter n p l : keys_ok n l -> keys_ok n (filter p l).
  Proof. intros H e He. apply filter_In in He as [He _]. auto. Qed.
  Lemma col_rest l f f0 : f <> f0 -> col m (rest m l f0) f = col m l f.
  Proof.
    intros H. unfold col, rest. rewrite filter_filter. apply filter_ext_in'. intros e _.
    destruct (leqb (head_of m (fst e)) f) eqn:E; auto. apply leqb_eq in E. rewrite E.
    replace (leqb f f0) with false by (symmetry; apply leqb_neq; auto). reflexivity.
  Qed.

  Definition isblk (f1 f2 : list nat) (prs : list (dense R * dense R)) (blk : dense R) : Prop :=
    exists x y sz, block_sizes out (f1 ++ f2) = Ok sz /\ dsh blk = sz /\ prod_list sz = x * y /\ Forall (fits x y) prs /\
      forall o i j, rowmajor sz o = i * y + j -> j < y -> dv blk o = sumf R (fun p => mmv p i j) prs.
  Definition can f1 f2 (prs : list (dense R * dense R)) : Prop :=
    exists x y sz, block_sizes out (f1 ++ f2) = Ok sz /\ prod_list sz = x * y /\ Forall (fits x y) prs.

  Lemma reshape_mat x y sz (d : dense R) : dsh d = [x; y] -> prod_list sz = x * y ->
    exists blk, t_reshape sz d = Ok blk /\ dsh blk = sz /\
      forall o i j, rowmajor sz o = i * y + j -> j < y -> dv blk o = dv d [i; j].
  Proof.
    intros Hd Hp. unfold t_reshape. rewrite Hd, Hp. replace (prod_list [x; y]) with (x * y) by (cbn; lia). rewrite Nat.eqb_refl.
    eexists. split; [reflexivity|]. split; auto. intros o i j E Hj. cbn [d_reshape dv]. rewrite Hd, E. cbn [decode].
    replace (prod_list [y]) with y by (cbn; lia). replace (prod_list []) with 1 by reflexivity.
    rewrite Nat.div_add_l, (Nat.div_small j), Nat.add_0_r by lia. rewrite Nat.add_comm, Nat.mod_add, Nat.mod_small, Nat.div_1_r by lia. reflexivity.
  Qed.

  Lemma inner_ext fuel cap k1 a l2 acc r : inner_loop imax m out fuel cap k1 a l2 acc = Ok r -> exists new, r = acc ++ new.
  Proof.
    revert l2 acc. induction fuel as [|fuel IH]; intros [|[k2 t2] l2] acc; cbn [inner_loop].
    - intros [= <-]. exists []. rewrite app_nil_r. auto.
    - destruct (cap <=? length acc); [|discriminate]. intros [= <-]. exists []. rewrite app_nil_r. auto.
    - intros [= <-]. exists []. rewrite app_nil_r. auto.
    - destruct (cap <=? length acc); [intros [= <-]; exists []; rewrite app_nil_r; auto|].
      destruct (find_next_match m a _) as [[|ea la] [|eb lb]]; try (apply IH).
      destruct (block_sizes out _); cbn [rbind]; try discriminate. destruct (t_mm _ _); cbn [rbind]; try discriminate.
      destruct (addmm_loop _ _ _ _ _); cbn [rbind]; try discriminate. destruct (t_reshape _ _); cbn [rbind]; try discriminate.
      intros H. apply IH in H as [new ->]. rewrite <- app_assoc. eexists; reflexivity.
  Qed.
  Lemma inner_cap fuel cap cap' k1 a l2 acc r : cap <= cap' -> inner_loop imax m out fuel cap' k1 a l2 acc = Ok r -> length r <= cap ->
    inner_loop imax m out fuel cap k1 a l2 acc = Ok r.
  Proof.
    intros Hc. revert l2 acc. induction fuel as [|fuel IH]; intros [|[k2 t2] l2] acc; cbn [inner_loop]; auto; intros H HL.
    - destruct (Nat.leb_spec cap' (length acc)); [|discriminate]. replace (cap <=? length acc) with true by (symmetry; apply Nat.leb_le; lia). auto.
    - destruct (Nat.leb_spec cap (length acc)) as [E|E].
      + assert (E' : exists new, r = acc ++ new).
        { destruct (cap' <=? length acc); [injection H as <-; exists []; rewrite app_nil_r; auto|].
          destruct (find_next_match m a _) as [[|ea la] [|eb lb]]; try (apply (inner_ext _ _ _ _ _ _ H)).
          destruct (block_sizes out _); cbn [rbind] in H; try discriminate. destruct (t_mm _ _); cbn [rbind] in H; try discriminate.
          destruct (addmm_loop _ _ _ _ _); cbn [rbind] in H; try discriminate. destruct (t_reshape _ _); cbn [rbind] in H; try discriminate.
          apply inner_ext in H as [new ->]. rewrite <- app_assoc. eexists; reflexivity. }
        destruct E' as [new ->]. rewrite app_length in HL. destruct new; [rewrite app_nil_r; auto|cbn in HL; lia].
      + destruct (Nat.leb_spec cap' (length acc)) as [E'|E']; [lia|].
        destruct (find_next_match m a _) as [[|ea la] [|eb lb]]; try (apply IH; auto).
        destruct (block_sizes out _); cbn [rbind] in H |- *; try discriminate. destruct (t_mm _ _); cbn [rbind] in H |- *; try discriminate.
        destruct (addmm_loop _ _ _ _ _); cbn [rbind] in H |- *; try discriminate. destruct (t_reshape _ _); cbn [rbind] in H |- *; try discriminate.
        apply IH; auto.
  Qed.

  (** What the inner loop adds. *)
  Definition adds1 f1 a l2 (new : list entry) : Prop :=
    length new <= length l2 /\ NoDup (map fst new) /\
    (forall k blk, In (k, blk) new -> exists e2, In e2 l2 /\ k = f1 ++ head_of m (fst e2) /\
        matches m a (col m l2 (head_of m (fst e2))) <> [] /\ isblk f1 (head_of m (fst e2)) (matches m a (col m l2 (head_of m (fst e2)))) blk) /\
    (forall e2, In e2 l2 -> matches m a (col m l2 (head_of m (fst e2))) <> [] -> In (f1 ++ head_of m (fst e2)) (map fst new)).

  Lemma inner_spec n fuel cap k1 a l2 acc : sorted lexb l2 -> keys_ok n l2 -> m <= n -> 0 < n -> srt a ->
    length l2 <= fuel -> length acc + length l2 < cap ->
    (forall e2, In e2 l2 -> matches m a (col m l2 (head_of m (fst e2))) <> [] ->
       can (head_of m k1) (head_of m (fst e2)) (matches m a (col m l2 (head_of m (fst e2))))) ->
    exists new, inner_loop imax m out fuel cap k1 a l2 acc = Ok (acc ++ new) /\ adds1 (head_of m k1) a l2 new.
  Proof.
    intros HS HK Hm Hn Ha. revert l2 acc HS HK. induction fuel as [|fuel IH]; intros [|[k2 t2] l2] acc HS HK Hf Hc HC; cbn [length] in Hf; try lia;
      cbn [inner_loop].
    1,2: exists []; split; [rewrite app_nil_r; auto|]; split; [auto|]; split; [apply NoDup_nil|]; split; [intros ? ? []|intros ? []].
    destruct (Nat.leb_spec cap (length acc)) as [E|_]; [cbn [length] in Hc; lia|].
    destruct (split_col HS HK Hm Hn) as [S1 [S2 S3]]. rewrite S1, S2. set (l0 := (k2, t2) :: l2) in *. set (f2 := head_of m k2) in *.
    set (f1 := head_of m k1) in *.
    assert (Hb : srt (col m l0 f2)) by (apply (col_tails_sorted f2 HS HK Hm)).
    assert (HR1 : sorted lexb (rest m l0 f2)) by (apply sorted_filter; auto).
    assert (HR2 : keys_ok n (rest m l0 f2)) by (apply keys_filter; auto).
    assert (HRin : forall e, In e (rest m l0 f2) -> In e l0 /\ head_of m (fst e) <> f2).
    { intros e He. apply filter_In in He as [He E]. split; auto. apply negb_true_iff in E. apply leqb_neq in E. auto. }
    assert (HRc : forall e, In e (rest m l0 f2) -> col m (rest m l0 f2) (head_of m (fst e)) = col m l0 (head_of m (fst e))).
    { intros e He. apply col_rest. apply (HRin e He). }
    assert (HCr : forall e2, In e2 (rest m l0 f2) -> matches m a (col m (rest m l0 f2) (head_of m (fst e2))) <> [] ->
       can f1 (head_of m (fst e2)) (matches m a (col m (rest m l0 f2) (head_of m (fst e2))))).
    { intros e He. rewrite (HRc e He). apply HC. apply (HRin e He). }
    assert (Hin0 : In (k2, t2) l0) by (left; auto).
    destruct (fnm_spec m a (col m l0 f2) Ha Hb) as [[H1 H2]|(ea & a' & eb & b' & H1 & H2 & H3 & H4 & H5 & H6 & _)]; rewrite H1.
    - destruct (IH (rest m l0 f2) acc) as [new [N1 [N2 [N3 [N4 N5]]]]]; auto; try lia; [unfold l0 in Hc; cbn [length] in Hc; lia|].
      exists new. split; auto. split; [unfold l0; cbn [length]; lia|]. split; auto. split.
      + intros k blk Hi. destruct (N4 k blk Hi) as [e2 [P1 P2]]. exists e2. rewrite (HRc e2 P1) in P2. split; auto. apply (HRin e2 P1).
      + intros e2 He Hne. destruct (leqb (head_of m (fst e2)) f2) eqn:E.
        * apply leqb_eq in E. rewrite E in Hne. congruence.
        * assert (Hr : In e2 (rest m l0 f2)) by (apply filter_In; rewrite E; auto). apply N5; auto. rewrite (HRc e2 Hr). auto.
    - destruct (HC (k2, t2) Hin0) as [x [y [sz [C1 [C2 C3]]]]].
      { cbn [fst]. fold f2. rewrite H6. discriminate. }
      cbn [fst] in C1, C3. fold f2 in C1, C3. rewrite C1. cbn [rbind]. pose proof C3 as C3'. rewrite H6 in C3'. inversion C3' as [|z r Hz Hr]; subst.
      destruct (mm_spec Hz) as [d0 [D1 [D2 D3]]]. cbn [fst snd] in D1. rewrite D1. cbn [rbind].
      destruct (@addmm_loop_spec R m x y (Datatypes.S (length a')) d0 a' (eb :: b')) as [d1 [E1 [E2 E3]]]; auto.
      { apply srt_cons in H2 as [_ H2]. auto. }
      rewrite E1. cbn [rbind]. destruct (@reshape_mat x y sz d1 E2 C2) as [blk [B1 [B2 B3]]]. rewrite B1. cbn [rbind].
      destruct (IH (rest m l0 f2) (acc ++ [(f1 ++ f2, blk)])) as [new [N1 [N2 [N3 [N4 N5]]]]]; auto; try lia;
        [rewrite app_length; unfold l0 in Hc; cbn [length] in *; lia|].
      exists ((f1 ++ f2, blk) :: new). split; [rewrite N1; f_equal; rewrite <- app_assoc; reflexivity|].
      assert (Hnew : forall k, In k (map fst new) -> k <> f1 ++ f2).
      { intros k Hk -> . apply in_map_iff in Hk as [[k' bl'] [E Hi]]. cbn in E. subst k'. destruct (N4 _ _ Hi) as [e2 [P1 [P2 _]]].
        apply app_inv_head in P2. destruct (HRin e2 P1) as [_ P3]. congruence. }
      split; [unfold l0; cbn [length]; lia|]. split; [|split].
      + cbn [map fst]. constructor; auto. intros Hi. apply (Hnew _ Hi). reflexivity.
      + intros k bl [[= <- <-]|Hi].
        * exists (k2, t2). split; auto. cbn [fst]. fold f2. split; auto. split; [rewrite H6; discriminate|].
          exists x, y, sz. repeat split; auto. intros o i j Ho Hj. rewrite (B3 o i j Ho Hj), E3, D3, H6, sumf_cons. reflexivity.
        * destruct (N4 _ _ Hi) as [e2 [P1 P2]]. exists e2. rewrite (HRc e2 P1) in P2. split; auto. apply (HRin e2 P1).
      + intros e2 He Hne. cbn [map fst]. destruct (leqb (head_of m (fst e2)) f2) eqn:E.
        * apply leqb_eq in E. left. rewrite E. reflexivity.
        * right. assert (Hr' : In e2 (rest m l0 f2)) by (apply filter_In; rewrite E; auto). apply N5; auto. rewrite (HRc e2 Hr'). auto.
  Qed.

  Definition adds l1 l2 (new : list entry) : Prop :=
    NoDup (map fst new) /\
    (forall k blk, In (k, blk) new -> exists e1 e2, In e1 l1 /\ In e2 l2 /\ k = head_of m (fst e1) ++ head_of m (fst e2) /\
        matches m (col m l1 (head_of m (fst e1))) (col m l2 (head_of m (fst e2))) <> [] /\
        isblk (head_of m (fst e1)) (head_of m (fst e2)) (matches m (col m l1 (head_of m (fst e1))) (col m l2 (head_of m (fst e2)))) blk) /\
    (forall e1 e2, In e1 l1 -> In e2 l2 -> matches m (col m l1 (head_of m (fst e1))) (col m l2 (head_of m (fst e2))) <> [] ->
        In (head_of m (fst e1) ++ head_of m (fst e2)) (map fst new)).

  Lemma outer_ext fuel cap l1 l2 acc r : outer_loop imax m out fuel cap l1 l2 acc = Ok r -> exists new, r = acc ++ new.
  Proof.
    revert l1 acc. induction fuel as [|fuel IH]; intros [|[k1 t1] l1] acc; cbn [outer_loop].
    - intros [= <-]. exists []. rewrite app_nil_r. auto.
    - destruct (cap <=? length acc); [|discriminate]. intros [= <-]. exists []. rewrite app_nil_r. auto.
    - intros [= <-]. exists []. rewrite app_nil_r. auto.
    - destruct (cap <=? length acc); [intros [= <-]; exists []; rewrite app_nil_r; auto|].
      destruct (inner_loop _ _ _ _ _ _ _ _ _) eqn:E; cbn [rbind]; try discriminate. apply inner_ext in E as [n1 ->].
      intros H. apply IH in H as [new ->]. rewrite <- app_assoc. eexists; reflexivity.
  Qed.
  Lemma outer_cap fuel cap cap' l1 l2 acc r : cap <= cap' -> outer_loop imax m out fuel cap' l1 l2 acc = Ok r -> length r <= cap ->
    outer_loop imax m out fuel cap l1 l2 acc = Ok r.
  Proof.
    intros Hc. revert l1 acc. induction fuel as [|fuel IH]; intros [|[k1 t1] l1] acc; cbn [outer_loop]; auto; intros H HL.
    - destruct (Nat.leb_spec cap' (length acc)); [|discriminate]. replace (cap <=? length acc) with true by (symmetry; apply Nat.leb_le; lia). auto.
    - destruct (Nat.leb_spec cap (length acc)) as [E|E].
      + assert (E' : exists new, r = acc ++ new).
        { destruct (cap' <=? length acc); [injection H as <-; exists []; rewrite app_nil_r; auto|].
          destruct (inner_loop _ _ _ _ _ _ _ _ _) eqn:E1; cbn [rbind] in H; try discriminate. apply inner_ext in E1 as [n1 ->].
          apply outer_ext in H as [new ->]. rewrite <- app_assoc. eexists; reflexivity. }
        destruct E' as [new ->]. rewrite app_length in HL. destruct new; [rewrite app_nil_r; auto|cbn in HL; lia].
      + destruct (Nat.leb_spec cap' (length acc)) as [E'|E']; [lia|].
        destruct (inner_loop _ _ _ _ cap' _ _ _ _) as [acc'| |] eqn:E1; cbn [rbind] in H |- *; try discriminate.
        pose proof H as Ho. apply outer_ext in Ho as [new Ho]. rewrite (inner_cap _ _ _ _ _ Hc E1).
        * cbn [rbind]. apply IH; auto.
        * subst r. rewrite app_length in HL. lia.
  Qed.

  Lemma outer_spec n1 n2 fuel cap l1 l2 acc : sorted lexb l1 -> sorted lexb l2 -> keys_ok n1 l1 -> keys_ok n2 l2 ->
    m <= n1 -> m <= n2 -> 0 < n1 -> 0 < n2 -> length l1 <= fuel -> length acc + length l1 * length l2 + length l2 < cap ->
    (forall e1 e2, In e1 l1 -> In e2 l2 -> matches m (col m l1 (head_of m (fst e1))) (col m l2 (head_of m (fst e2))) <> [] ->
       can (head_of m (fst e1)) (head_of m (fst e2)) (matches m (col m l1 (head_of m (fst e1))) (col m l2 (head_of m (fst e2))))) ->
    exists new, outer_loop imax m out fuel cap l1 l2 acc = Ok (acc ++ new) /\ adds l1 l2 new.
  Proof.
    intros HS1 HS2 HK1 HK2 Hm1 Hm2 Hn1 Hn2. revert l1 acc HS1 HK1. induction fuel as [|fuel IH]; intros [|[k1 t1] l1] acc HS1 HK1 Hf Hc HC;
      cbn [length] in Hf; try lia; cbn [outer_loop].
    1,2: exists []; split; [rewrite app_nil_r; auto|]; split; [apply NoDup_nil|]; split; [intros ? ? []|intros ? ? []].
    destruct (Nat.leb_spec cap (length acc)) as [E|_]; [lia|].
    destruct (split_col HS1 HK1 Hm1 Hn1) as [S1 [S2 S3]]. rewrite S1, S2. set (l0 := (k1, t1) :: l1) in *. set (f1 := head_of m k1) in *.
    assert (Ha : srt (col m l0 f1)) by (apply (col_tails_sorted f1 HS1 HK1 Hm1)).
    assert (HR1 : sorted lexb (rest m l0 f1)) by (apply sorted_filter; auto).
    assert (HR2 : keys_ok n1 (rest m l0 f1)) by (apply keys_filter; auto).
    assert (HRin : forall e, In e (rest m l0 f1) -> In e l0 /\ head_of m (fst e) <> f1).
    { intros e He. apply filter_In in He as [He E]. split; auto. apply negb_true_iff in E. apply leqb_neq in E. auto. }
    assert (HRc : forall e, In e (rest m l0 f1) -> col m (rest m l0 f1) (head_of m (fst e)) = col m l0 (head_of m (fst e))).
    { intros e He. apply col_rest. apply (HRin e He). }
    assert (Hin0 : In (k1, t1) l0) by (left; auto).
    assert (HLr : length (rest m l0 f1) * length l2 + length l2 <= length l0 * length l2) 
      by (replace (length l0) with (Datatypes.S (length l1)) by reflexivity; clear -S3; nia).
    destruct (@inner_spec n2 (Datatypes.S (length l2)) cap k1 (col m l0 f1) l2 acc) as [nw [I1 I2]]; auto; try lia.
    { intros e2 He2. apply (HC (k1, t1) e2); auto. }
    rewrite I1. cbn [rbind]. destruct I2 as [I2 [I3 [I4 I5]]]. fold f1 in I4, I5.
    destruct (IH (rest m l0 f1) (acc ++ nw)) as [new [N1 [N2 [N3 N4]]]]; auto; try lia; [rewrite app_length; lia| |].
    { intros e1 e2 He1 He2. rewrite (HRc e1 He1). apply HC; auto. apply (HRin e1 He1). }
    exists (nw ++ new). rewrite app_assoc. split; auto. split; [|split].
    - rewrite map_app. apply NoDup_app_intro; auto. intros k Hk1 Hk2. apply in_map_iff in Hk1 as [[k' b1] [E1 J1]]. cbn in E1. subst k'.
      apply in_map_iff in Hk2 as [[k' b2] [E2 J2]]. cbn in E2. subst k'. destruct (I4 _ _ J1) as [x2 [Q1 [Q2 _]]].
      destruct (N3 _ _ J2) as [y1 [y2 [Q3 [Q4 [Q5 _]]]]]. rewrite Q2 in Q5. destruct (HRin y1 Q3) as [Q6 Q7]. apply Q7. symmetry.
      assert (HL : length f1 = length (head_of m (fst y1))).
      { unfold f1. rewrite !head_len. destruct (HK1 _ Hin0) as [W1 _]. destruct (HK1 _ Q6) as [W2 _]. cbn in W1. lia. }
      apply (f_equal (firstn (length f1))) in Q5. rewrite firstn_mid in Q5. rewrite HL, firstn_mid in Q5. auto.
    - intros k bl Hi. apply in_app_or in Hi as [Hi|Hi].
      + destruct (I4 _ _ Hi) as [e2 [Q1 Q2]]. exists (k1, t1), e2. cbn [fst]. fold f1. auto.
      + destruct (N3 _ _ Hi) as [e1 [e2 [Q1 [Q2 Q3]]]]. exists e1, e2. rewrite (HRc e1 Q1) in Q3. split; [apply (HRin e1 Q1)|auto].
    - intros e1 e2 He1 He2 Hne. rewrite map_app. apply in_or_app. destruct (leqb (head_of m (fst e1)) f1) eqn:E.
      + left. apply leqb_eq in E. rewrite E in *. apply I5; auto.
      + right. assert (Hr : In e1 (rest m l0 f1)) by (apply filter_In; rewrite E; auto). apply N4; auto. rewrite (HRc e1 Hr). auto.
  Qed.
End Cols.
