(** The ranges of blocks of a tensor. *)
From Verif Require Import Base Quantity QuantityProofs FlatMap SpecFlatMap FlatMapProofs Ring Index SpecIndex Dense IndexProofs BTensor SpecBTensor LegsProofs BTensorProofs BTensorArith Tensordot BSvd SvdPieces SvdProofs SvdThms Compact SpecCompact CompactProofs.
Set Implicit Arguments.

Section Ranges.
  Variable G : abgroup.
  Variable R : ring.
  Notation t := (btensor G R).
  Notation entry := (list nat * dense R)%type.
  Notation K := (list nat * (G * G))%type.
  Definition keqb (a b : K) : bool := leqb (fst a) (fst b) && pkeqb G (snd a) (snd b).
  Definition klt (a b : K) : bool := pklt G (snd a) (snd b) || (pkeqb G (snd a) (snd b) && lexb (fst a) (fst b)).
  Lemma k_order : key_order keqb klt.
  Proof.
    destruct (pkey_order G) as (P1 & P2 & P3 & P4). destruct key_order_idx as (I1 & I2 & I3 & I4). split; [|split; [|split]].
    - intros (a, p) (b, q). unfold keqb. cbn. rewrite andb_true_iff, I1, P1. split; [intros [-> ->]; reflexivity|intros E; injection E; auto].
    - intros (a, p). unfold klt. cbn. rewrite P2, I2, andb_false_r. reflexivity.
    - intros (a, p) (b, q) (c, r). unfold klt. cbn. rewrite !orb_true_iff, !andb_true_iff, !P1. intros [H|[-> H]] [H'|[-> H']]; eauto.
    - intros (a, p) (b, q). unfold klt. cbn. rewrite !orb_true_iff, !andb_true_iff, !P1. destruct (P4 p q) as [H|[->|H]]; [auto| |auto]. destruct (I4 a b) as [H|[->|H]]; auto.
  Qed.
  Lemma lex_first n : forall x y, lexb x y = true -> lexb (firstn n y) (firstn n x) = false.
  Proof.
    induction n as [|n IH]; intros x y H; [reflexivity|]. destruct x as [|a x], y as [|b y]; cbn [firstn]; try reflexivity; try discriminate.
    cbn [lexb] in *. apply orb_true_iff in H as [H|H].
    - apply Nat.ltb_lt in H. rewrite (proj2 (Nat.ltb_ge b a)), (proj2 (Nat.eqb_neq b a)) by lia. reflexivity.
    - apply andb_true_iff in H as [H1 H2]. apply Nat.eqb_eq in H1. subst b. rewrite Nat.ltb_irrefl, Nat.eqb_refl. cbn [orb andb]. apply IH, H2.
  Qed.
  Variable T : t.
  Notation key := (fun e : entry => group T (fst e)).
  Hypothesis V : valid T.
  Hypothesis HR : 2 <= b_rank T.
  Lemma last_section d e : 1 <= d <= 2 -> last_qtt T d e = section_quantity T (b_rank T - d) (fst e).
  Proof. intros Hd. unfold last_qtt, section_quantity, qlegs. rewrite prange_unpack by (destruct V as ((M & _) & _); lia). reflexivity. Qed.
  Lemma same_key a b : same_range T a b = keqb (key a) (key b).
  Proof.
    unfold same_range, keqb, equal_index, equal_last, pkeqb. cbn [fst snd group]. rewrite !last_section by lia. f_equal.
    destruct (Nat.ltb_spec 2 (b_rank T)); [reflexivity|]. replace (b_rank T - 2) with 0 by lia. reflexivity.
  Qed.
  Lemma lt_key a b : last_lt T a b = pklt G (snd (key a)) (snd (key b)).
  Proof. unfold last_lt, pklt. cbn [fst snd group]. rewrite !last_section by lia. reflexivity. Qed.
  Lemma insert_same x l : (forall y, In y l -> lexb (fst x) (fst y) = true) -> stable_insert (last_lt T) x l = stable_insert (fun a b => klt (key a) (key b)) x l.
  Proof.
    induction l as [|y r IH]; intros H; cbn [stable_insert]; [reflexivity|]. unfold klt at 1. rewrite <- lt_key. cbn [fst group]. rewrite (lex_first (b_rank T - 2)), andb_false_r, orb_false_r by (apply H; left; reflexivity).
    destruct (last_lt T y x); [|reflexivity]. f_equal. apply IH. intros z Hz. apply H. right. exact Hz.
  Qed.
  Lemma sort_same l : sorted lexb l -> stable_sort (last_lt T) l = stable_sort (fun a b => klt (key a) (key b)) l.
  Proof.
    induction 1 as [|x l HS IH HF]; [reflexivity|]. unfold stable_sort in *. cbn [fold_right]. rewrite IH. apply insert_same. intros y Hy. rewrite Forall_forall in HF. apply HF.
    apply (@sort_In R K key klt l y). exact Hy.
  Qed.
  Lemma runs_cuts (eqv same : entry -> entry -> bool) l : (forall a b, same a b = eqv a b) -> forall x acc, cuts same x acc l = runs eqv x acc l.
  Proof. intros Q. induction l as [|y r IH]; intros x acc; cbn [cuts runs]; [reflexivity|]. rewrite Q. destruct (eqv x y); rewrite IH; reflexivity. Qed.
  Lemma same_refl x : same_range T x x = true. Proof. rewrite same_key. apply (proj1 k_order). reflexivity. Qed.
  Lemma same_sym x y : same_range T x y = true -> same_range T y x = true.
  Proof. rewrite !same_key. rewrite !(proj1 k_order). auto. Qed.
  Lemma same_trans x y z : same_range T x y = true -> same_range T y z = true -> same_range T x z = true.
  Proof. rewrite !same_key. rewrite !(proj1 k_order). congruence. Qed.
  Lemma sort_length lt (l : list entry) : length (stable_sort lt l) = length l.
  Proof. induction l as [|x l IH]; [reflexivity|]. unfold stable_sort in *. cbn [fold_right length]. rewrite <- IH. generalize (fold_right (stable_insert lt) [] l). intros r. induction r as [|y r IR]; cbn; [reflexivity|]. destruct (lt y x); cbn; lia. Qed.
  Lemma filter_sorted (f : entry -> bool) l : sorted lexb l -> sorted lexb (filter f l).
  Proof. induction 1 as [|x l HS IH HF]; [constructor|]. cbn. destruct (f x); [|exact IH]. constructor; [exact IH|]. rewrite Forall_forall in *. intros y Hy. apply filter_In in Hy as (Hy & _). auto. Qed.
  Theorem tensor_ranges_ok fuel : 2 * length (b_blocks T) + 1 <= fuel ->
    exists ks rs, tensor_ranges fuel T = Some (Ok (map Some rs)) /\ compact_tensor_count (same_range T) (reorder_last T) = length ks /\ Forall2 (blocks_of T) ks rs /\ NoDup ks /\
      forall k, In k ks <-> exists e, In e (b_blocks T) /\ group T (fst e) = k.
  Proof.
    intros HF. destruct (@pieces_spec R K key keqb klt k_order (b_blocks T)) as (ks & E & ND & HK). rewrite <- sort_same in E by apply V. fold (reorder_last T) in E.
    assert (EA : all_cuts (same_range T) (reorder_last T) = map (fun k => filter (fun e => keqb (key e) k) (b_blocks T)) ks).
    { rewrite <- E. unfold all_cuts. destruct (reorder_last T); [reflexivity|]. apply runs_cuts, same_key. }
    exists ks, (all_cuts (same_range T) (reorder_last T)). split; [|split; [|split; [|split]]].
    - unfold tensor_ranges. apply ranges_ok; [exact same_refl|exact same_sym|exact same_trans|]. unfold reorder_last. rewrite sort_length. exact HF.
    - rewrite count_cuts; [|exact same_refl|exact same_sym|exact same_trans]. rewrite EA, map_length. reflexivity.
    - rewrite EA. clear -V. induction ks as [|k ks IH]; constructor; [|exact IH]. split; [apply filter_sorted, V|]. intros e. rewrite filter_In, (proj1 k_order). reflexivity.
    - exact ND.
    - exact HK.
  Qed.
End Ranges.

Section Matrix.
  Variable G : abgroup.
  Variable R : ring.
  Variable T : btensor G R.
  (** For two dimensions, the matrices of [compact_dense] are those of the ranges. *)
  Lemma matrix_ranges fuel rs : valid T -> b_rank T = 2 -> 2 * length (b_blocks T) + 1 <= fuel -> tensor_ranges fuel T = Some (Ok (map Some rs)) -> compact_dense T = rmapM (@compact_dense_single R) rs.
  Proof.
    intros V HR HF E. unfold tensor_ranges in E. rewrite ranges_ok in E; [|apply same_refl; [exact V|lia]|apply same_sym; [exact V|lia]|apply same_trans; [exact V|lia]|unfold reorder_last; rewrite (sort_length T) by lia; exact HF].
    assert (Q : all_cuts (same_range T) (reorder_last T) = rs). { injection E as E. clear -E. revert rs E. induction (all_cuts (same_range T) (reorder_last T)) as [|x l IH]; intros [|y rs] E; try discriminate; [reflexivity|]. injection E as -> E. f_equal. apply IH, E. }
    rewrite <- Q. unfold compact_dense. assert (ER : reorder_by_cvals T = reorder_last T). { unfold reorder_by_cvals, reorder_last. f_equal. unfold cval_lt, last_lt, last_qtt, qtt, row_of, col_of. rewrite HR. reflexivity. }
    rewrite ER. unfold all_cuts. destruct (reorder_last T); [reflexivity|]. f_equal. symmetry. apply runs_cuts. intros a b. unfold same_range, equal_index, equal_last, equal_c_vals, last_qtt, qtt, row_of, col_of. rewrite HR. reflexivity.
  Qed.
End Matrix.
