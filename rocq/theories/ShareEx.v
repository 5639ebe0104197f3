(** Programs with block tensors that share memory. *)
From Verif Require Import Base Quantity QuantityProofs FlatMap SpecFlatMap FlatMapProofs Ring Index SpecIndex IndexProofs Dense BTensor SpecBTensor BTensorProofs BTensorThms BTensorEx SpecArith BTensorArith ArithThms Share SpecShare ShareProofs ShareThms ShareOps.
Set Implicit Arguments.

Notation zs := (@st z_group ring_Z).
Notation zo := (@op z_group ring_Z).
Notation zadd := (@OAdd z_group ring_Z). Notation zadd_in := (@OAddIn z_group ring_Z). Notation zadd_move := (@OAddMove z_group ring_Z). Notation zadd_in_move := (@OAddInMove z_group ring_Z).
Notation zmap := (@OMap z_group ring_Z). Notation zmap_in := (@OMapIn z_group ring_Z).
(** The elements of the blocks of every variable. *)
Definition show (s : zs) : list (list (list nat * list Z)) := map (fun z => map (fun e => (fst e, elems (read (s_heap s) (snd e)))) (t_blk z)) (s_vars s).
Definition news : list zo := [ONew exA; ONew exB; ONew exC].
Definition after (p : list zo) : result (list (list (list nat * list Z))) := rmap show (runs start p).
Definition vA := [([0; 0], [3; 4]%Z); ([1; 1], [5; 6]%Z)] : list (list nat * list Z).
Definition vB := [([1; 1], [7; 8]%Z)] : list (list nat * list Z).
Definition vC := [([0; 0], [1; 2]%Z)] : list (list nat * list Z).

Example ex_add : after (news ++ [OCopy 0; zadd 0 1 2%Z]) = Ok [vA; vB; vC; vA; [([0; 0], [6; 8]%Z); ([1; 1], [19; 22]%Z)]].
Proof. vm_compute. reflexivity. Qed.
(** A copy follows in the block that was there. *)
Example ex_add_in : after (news ++ [OCopy 1; zadd_in 1 0 2%Z]) = Ok [vA; [([0; 0], [6; 8]%Z); ([1; 1], [17; 20]%Z)]; vC; [([1; 1], [17; 20]%Z)]].
Proof. vm_compute. reflexivity. Qed.
Example ex_map_in : after (news ++ [OCopy 0; zmap 0 (Z.mul 3); zmap_in 0 (Z.mul 2)]) =
  Ok [[([0; 0], [6; 8]%Z); ([1; 1], [10; 12]%Z)]; vB; vC; [([0; 0], [6; 8]%Z); ([1; 1], [10; 12]%Z)]; [([0; 0], [9; 12]%Z); ([1; 1], [15; 18]%Z)]].
Proof. vm_compute. reflexivity. Qed.
(** [B.add(std::move(A), 2)] changes [B]. *)
Example ex_add_move : after (news ++ [zadd_move 1 0 2%Z]) = Ok [[([0; 0], [6; 8]%Z); ([1; 1], [5; 6]%Z)]; [([1; 1], [17; 20]%Z)]; vC; [([0; 0], [6; 8]%Z); ([1; 1], [17; 20]%Z)]].
Proof. vm_compute. reflexivity. Qed.
(** [B.add_(std::move(A), 2)]: a copy of [A] keeps its elements. *)
Example ex_add_in_move : after (news ++ [OCopy 0; zadd_in_move 1 0 2%Z]) = Ok [[]; [([0; 0], [6; 8]%Z); ([1; 1], [17; 20]%Z)]; vC; vA].
Proof. vm_compute. reflexivity. Qed.
(** The structure of the transposed tensors, without blocks; [D -= B.permute({1, 0})] changes the sign of [B]. *)
Definition exD : zt := zB (q 0) 2 [2; 2] [2; 1; 1; 2] [q 0; q (-1); q 0; q 1] [].
Lemma exD_valid : valid exD. Proof. ex_valid. Qed.
Definition prog_view : list zo := [ONew exB; OPerm 0 [1; 0]%Z; ONew exD].
Example ex_view : after prog_view = Ok [vB; vB; []] /\ after (prog_view ++ [zadd_in_move 2 1 (-1)%Z]) = Ok [[([1; 1], [-7; -8]%Z)]; []; [([1; 1], [-7; -8]%Z)]].
Proof. split; vm_compute; reflexivity. Qed.

Definition crossb (h : @heap ring_Z) (x y : @ten z_group ring_Z) : bool :=
  forallb (fun e => forallb (fun e' => leqb (fst e) (fst e') || negb match mem_at h (snd e), mem_at h (snd e') with Some m, Some m' => m =? m' | None, None => true | _, _ => false end) (t_blk y)) (t_blk x).
Lemma crossb_ok h x y : crossb h x y = true -> cross h x y.
Proof.
  unfold crossb. intros E k i k' j I J Q. rewrite forallb_forall in E. specialize (E _ I). rewrite forallb_forall in E. specialize (E _ J). cbn in E. rewrite Q in E. apply Bool.orb_true_iff in E as [E|E]; [apply (keq key_order_idx), E|].
  destruct (mem_at h j) as [m|]; [rewrite Nat.eqb_refl in E|]; discriminate.
Qed.
Lemma same_elems (s s' : zs) z : unchanged s s' z -> map (fun e => (fst e, elems (read (s_heap s) (snd e)))) (t_blk z) = map (fun e => (fst e, elems (read (s_heap s') (snd e)))) (t_blk z).
Proof.
  intros [_ F]. cbn [value with_blocks b_blocks] in F. induction (t_blk z) as [|e l IH]; [reflexivity|]. cbn in F |- *. inversion F as [|? ? ? ? [_ [S V]] Q]; subst. cbn in S, V. f_equal; [|apply IH, Q]. f_equal. unfold elems. rewrite <- S. apply map_ext_in. intros j Hj. apply V. apply idxs_In. exact Hj.
Qed.
(** Facts about the state after a program, by running it. *)
Lemma run_fact (p : list zo) (f : zs -> bool) : rmap f (runs start p) = Ok true -> exists s, runs start p = Ok s /\ f s = true.
Proof. destruct (runs start p) as [s| |]; try discriminate. intros [= E]. exists s. auto. Qed.

Lemma rmap_eq A B (f : A -> B) r r' s s' : r = Ok s -> r' = Ok s' -> rmap f r = rmap f r' -> f s = f s'.
Proof. intros -> -> [= E]. exact E. Qed.

Lemma news_fair : fair_run start news.
Proof. split; [apply exA_valid|]. intros s1 _. split; [apply exB_valid|]. intros s2 _. split; [apply exC_valid|]. intros s3 _. exact I. Qed.
Definition news_checks (s : zs) : bool := match s_vars s with [x; y; w] => crossb (s_heap s) y x && match bt_add (value (s_heap s) y) (value (s_heap s) x) 2%Z with Ok _ => true | _ => false end && match bt_add_rvalue (value (s_heap s) y) (value (s_heap s) x) 2%Z with Ok _ => true | _ => false end | _ => false end.
Lemma news_state : exists s x y w T, runs start news = Ok s /\ good s /\ s_vars s = [x; y; w] /\ cross (s_heap s) y x /\ bt_add (value (s_heap s) y) (value (s_heap s) x) 2%Z = Ok T /\ bt_add_rvalue (value (s_heap s) y) (value (s_heap s) x) 2%Z = Ok T.
Proof.
  destruct (@run_fact news news_checks) as (s & E & C); [vm_compute; reflexivity|]. unfold news_checks in C. destruct (s_vars s) as [|x [|y [|w [|]]]] eqn:Ev; try discriminate.
  apply andb_prop in C as [C C3]. apply andb_prop in C as [C C2]. destruct (bt_add (value (s_heap s) y) (value (s_heap s) x) 2%Z) as [T| |] eqn:ET; try discriminate.
  exists s, x, y, w, T. split; [exact E|]. split; [exact (@runs_good _ _ news start s start_good news_fair E)|]. split; [exact Ev|]. split; [apply crossb_ok, C|]. split; [exact ET|].
  unfold bt_add_rvalue in *. rewrite ET in *. cbn [rbind] in *. destruct (b_blocks T); [discriminate|reflexivity].
Qed.
(** [B.add(std::move(A), 2)] is declared not to modify [B]. *)
Lemma add_move_changes : exists (s s' : zs) y, runs start news = Ok s /\ fair s (zadd_move 1 0 2%Z) /\ step s (zadd_move 1 0 2%Z) = Ok s' /\ nth_error (s_vars s) 1 = Some y /\ ~ unchanged s s' y.
Proof.
  destruct news_state as (s & x & y & w & T & E & HG & Ev & C & ET & ER). assert (Hx : nth_error (s_vars s) 0 = Some x) by (rewrite Ev; reflexivity). assert (Hy : nth_error (s_vars s) 1 = Some y) by (rewrite Ev; reflexivity).
  destruct (@addmove_ok _ _ s 1 0 y x 2%Z T HG Hy Hx C ER) as (s' & z & E' & _). exists s, s', y. split; [exact E|]. split; [intros a b Ha Hb; rewrite Hy in Ha; rewrite Hx in Hb; injection Ha as <-; injection Hb as <-; exact C|]. split; [exact E'|]. split; [exact Hy|].
  intros U. apply same_elems in U. pose proof ex_add_move as X. unfold after in X. assert (R1 : runs start (news ++ [zadd_move 1 0 2%Z]) = Ok s') by (rewrite runs_app, E; cbn [rbind]; rewrite runs_cons, E'; reflexivity).
  rewrite R1 in X. cbn [rmap] in X. injection X as X. assert (Q : rmap show (runs start news) = Ok [vA; vB; vC]) by (vm_compute; reflexivity). rewrite E in Q. injection Q as Q.
  assert (E2 : option_map t_blk (nth_error (s_vars s') 1) = option_map t_blk (nth_error (s_vars s) 1)) by (apply (@rmap_eq _ _ (fun t => option_map t_blk (nth_error (s_vars t) 1)) _ _ _ _ R1 E); vm_compute; reflexivity). rewrite Hy in E2. destruct (nth_error (s_vars s') 1) as [y'|] eqn:Hy'; [|discriminate]. cbn in E2. injection E2 as E2.
  apply (f_equal (fun l => nth_error l 1)) in X, Q. unfold show in X, Q. rewrite (map_nth_error _ _ _ Hy') in X. rewrite (map_nth_error _ _ _ Hy) in Q. rewrite E2, <- U in X. rewrite Q in X. discriminate.
Qed.
Lemma view_fair : fair_run start prog_view.
Proof.
  split; [apply exB_valid|]. intros s1 [= <-]. split.
  - intros x [= <-]. split; [ex_valid|]. exists [1; 0]. split; [|apply Permutation.perm_swap]. repeat constructor; cbn; lia.
  - intros s2 E. assert (F : sorted lexb (b_blocks exD)) by constructor. split; [exact F|]. intros s3 _. exact I.
Qed.
(** [D -= B.permute({1, 0})] *)
Lemma view_changes : exists (s s' : zs) b, fair_run start prog_view /\ runs start prog_view = Ok s /\ good s /\ fair s (zadd_in_move 2 1 (-1)%Z) /\ step s (zadd_in_move 2 1 (-1)%Z) = Ok s' /\ nth_error (s_vars s) 0 = Some b /\ ~ unchanged s s' b.
Proof.
  destruct (@run_fact prog_view (fun s => match s_vars s with [b; y; x] => crossb (s_heap s) x y && match step s (zadd_in_move 2 1 (-1)%Z) with Ok _ => true | _ => false end | _ => false end)) as (s & E & C); [vm_compute; reflexivity|].
  destruct (s_vars s) as [|b [|y [|x [|]]]] eqn:Ev; try discriminate. apply andb_prop in C as [C C2]. destruct (step s (zadd_in_move 2 1 (-1)%Z)) as [s'| |] eqn:E'; try discriminate.
  assert (Hb : nth_error (s_vars s) 0 = Some b) by (rewrite Ev; reflexivity). exists s, s', b. split; [exact view_fair|]. split; [exact E|]. split; [exact (@runs_good _ _ prog_view start s start_good view_fair E)|]. split.
  { split; [lia|]. intros a c Ha Hc. rewrite Ev in Ha, Hc. cbn in Ha, Hc. injection Ha as <-. injection Hc as <-. apply crossb_ok, C. }
  split; [exact E'|]. split; [exact Hb|].
  intros U. apply same_elems in U. destruct ex_view as [Q X]. unfold after in Q, X. assert (R1 : runs start (prog_view ++ [zadd_in_move 2 1 (-1)%Z]) = Ok s') by (rewrite runs_app, E; cbn [rbind]; rewrite runs_cons, E'; reflexivity).
  rewrite R1 in X. rewrite E in Q. cbn [rmap] in X, Q. injection X as X. injection Q as Q.
  assert (E2 : option_map t_blk (nth_error (s_vars s') 0) = option_map t_blk (nth_error (s_vars s) 0)) by (apply (@rmap_eq _ _ (fun t => option_map t_blk (nth_error (s_vars t) 0)) _ _ _ _ R1 E); vm_compute; reflexivity). rewrite Hb in E2. destruct (nth_error (s_vars s') 0) as [b'|] eqn:Hb'; [|discriminate]. cbn in E2. injection E2 as E2.
  apply (f_equal (fun l => nth_error l 0)) in X, Q. unfold show in X, Q. rewrite (map_nth_error _ _ _ Hb') in X. rewrite (map_nth_error _ _ _ Hb) in Q. rewrite E2, <- U in X. rewrite Q in X. discriminate.
Qed.
