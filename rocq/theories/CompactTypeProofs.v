(** The element type of the matrices: lemmas. *)
From Verif Require Import Base Quantity QuantityProofs FlatMap Ring Index SpecIndex Dense BTensor BTensorArith Tensordot BSvd BTensorEx CompactType SpecCompactType.
Set Implicit Arguments.

Section Typed.
  Context {G : abgroup} {R : ring}.
  Notation entry := (list nat * dense R)%type.
  Notation slice := (nat * (nat * nat))%type.
  Variable store : R -> R.
  Definition kept (e : entry) : Prop := forall i, in_range (dsh (snd e)) i = true -> store (dv (snd e) i) = dv (snd e) i.
  Lemma inside_range : forall org len i, inside org len i = true -> in_range len (map2 Nat.sub i org) = true.
  Proof.
    induction org as [|o org IH]; intros [|s len] [|x i] H; try discriminate; [reflexivity|]. cbn [inside] in H. apply andb_true_iff in H as [H1 H2]. apply andb_true_iff in H1 as [H0 H1].
    apply Nat.leb_le in H0. apply Nat.ltb_lt in H1. cbn. rewrite (proj2 (Nat.ltb_lt (x - o) s)) by lia. apply IH, H2.
  Qed.
  Lemma put_alike org (src M M' : dense R) : (forall i, in_range (dsh src) i = true -> store (dv src i) = dv src i) -> alike M M' -> alike (d_put org (d_map store src) M) (d_put org src M').
  Proof.
    intros K [S V]. split; [exact S|]. intros i. cbn. destruct (inside org (dsh src) i) eqn:Q; [|apply V]. apply K, inside_range, Q.
  Qed.
  Notation plain rows cols := (fun M (e : entry) => do c <- find_slice (col_of e) cols ; do r <- find_slice (row_of e) rows ;
    if leqb [snd r; snd c] (dsh (snd e)) then Ok (d_put [fst r; fst c] (snd e) M) else Throw TorchError).
  Lemma fold_alike rows cols p : Forall kept p -> forall M M', alike M M' -> alike_results alike (rfold (put_block store rows cols) p M) (rfold (plain rows cols) p M').
  Proof.
    induction 1 as [|e p K _ IH]; intros M M' A; cbn [rfold]; [exact A|]. unfold put_block at 1. destruct (find_slice (col_of e) cols) as [c| |]; cbn [rbind]; [|reflexivity|exact I]. destruct (find_slice (row_of e) rows) as [r| |]; cbn [rbind]; [|reflexivity|exact I].
    destruct (leqb [snd r; snd c] (dsh (snd e))); cbn [rbind]; [|reflexivity]. apply IH, put_alike; assumption.
  Qed.
  Lemma single_alike p : Forall kept p -> alike_results alike_piece (compact_single_typed store p) (compact_dense_single p).
  Proof.
    intros K. destruct p as [|x p0]; [exact I|]. unfold compact_single_typed, compact_dense_single. set (p := x :: p0) in *.
    destruct (fold_left meet_row p _) as [[cur m] rows]. destruct (fold_left meet_col p _) as [n cols].
    pose proof (@fold_alike rows cols p K (d_zeros [m; n]) (d_zeros [m; n]) (Logic.conj eq_refl (fun i => eq_refl))) as H.
    destruct (rfold (put_block store rows cols) p _), (rfold (plain rows cols) p _); cbn in H |- *; try contradiction; auto. split; auto.
  Qed.
  Lemma runs_In (eqv : entry -> entry -> bool) l : forall x acc p e, In p (runs eqv x acc l) -> In e p -> In e (acc ++ l).
  Proof.
    induction l as [|y l IH]; intros x acc p e; cbn [runs]; [intros [<-|[]] H; rewrite app_nil_r; exact H|]. destruct (eqv x y).
    - intros H1 H2. specialize (IH _ _ _ _ H1 H2). rewrite <- app_assoc in IH. exact IH.
    - intros [<-|H1] H2; apply in_or_app; [left; exact H2|right; exact (IH _ _ _ _ H1 H2)].
  Qed.
  Lemma insert_sub (lt : entry -> entry -> bool) x l e : In e (stable_insert lt x l) -> In e (x :: l).
  Proof. induction l as [|y l IH]; cbn [stable_insert]; [auto|]. destruct (lt y x); [|auto]. intros [<-|H]; [right; left; reflexivity|]. destruct (IH H) as [<-|H']; [left|right; right]; auto. Qed.
  Lemma sort_sub (lt : entry -> entry -> bool) l e : In e (stable_sort lt l) -> In e l.
  Proof. induction l as [|x l IH]; [intros []|]. unfold stable_sort in *. cbn [fold_right]. intros H%insert_sub. destruct H as [<-|H]; [left; reflexivity|right; auto]. Qed.
  Lemma map_alike L : (forall p, In p L -> Forall kept p) -> alike_results (Forall2 alike_piece) (rmapM (compact_single_typed store) L) (rmapM (@compact_dense_single R) L).
  Proof.
    induction L as [|p L IH]; intros H; cbn [rmapM]; [constructor|]. pose proof (single_alike (H p (or_introl eq_refl))) as A. assert (B := IH (fun p0 H0 => H p0 (or_intror H0))).
    destruct (compact_single_typed store p), (compact_dense_single p); cbn in A |- *; try contradiction; auto.
    destruct (rmapM (compact_single_typed store) L), (rmapM (@compact_dense_single R) L); cbn in B |- *; try contradiction; auto.
  Qed.
  Theorem typed_alike (T : btensor G R) : (forall e, In e (b_blocks T) -> kept e) -> alike_results (Forall2 alike_piece) (compact_typed store T) (compact_dense T).
  Proof.
    intros K. unfold compact_typed, compact_dense. apply map_alike. intros p Hp. apply Forall_forall. intros e He. apply K. apply (@sort_sub (cval_lt T)). fold (reorder_by_cvals T). destruct (reorder_by_cvals T) as [|x r]; [destruct Hp|]. exact (@runs_In _ r x [x] p e Hp He).
  Qed.
End Typed.

(** One block, the imaginary unit. *)
Definition real_part (x : ring_Zi) : ring_Zi := (fst x, 0%Z).
Definition ex_imag : btensor z_group ring_Zi := @mkB z_group ring_Zi (q 0) 2 [1; 1] [1; 1] [q 0; q 0] [([0; 0], @mkD ring_Zi [1; 1] (fun _ => (0, 1)%Z))].
