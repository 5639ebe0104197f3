(** Property theorems about the containers [MPS] and [bMPS] (C78). *)
From Verif Require Import Base Quantity Ring Index SpecIndex Dense BTensor BTensorArith Tensordot SpecTensordot View Bcast Chain BSvd Dmrg ChainCheck MoveOc MpsBox SpecMpsBox MpsBoxProofs.
Local Open Scope Z_scope.

(** C78. Full claim: after any sequence of public operations on any number of variables the centre of each is one of its sites.
    False of some of the operations; [harmless] says of which, and when, exactly. *)
Theorem C78_run_partial : forall T block dflt chk one conv pull push (ops : list (op T)) st,
  (forall pre o post s, ops = pre ++ o :: post -> run block dflt chk one conv pull push pre [] = Ok s -> harmless block s o) ->
  run block dflt chk one conv pull push ops [] = Ok st -> Forall (@centred_ok T) st.
Proof. intros. eapply run_ok; eauto. Qed.
Print Assumptions C78_run_partial.
(** [harmless] is exact: any other operation puts a centre off its chain. *)
Theorem C78_step : forall T block dflt chk one conv pull push (st : list (chain T)) o st',
  Forall (@centred_ok T) st -> step block dflt chk one conv pull push st o = Ok st' -> (Forall (@centred_ok T) st' <-> harmless block st o).
Proof. exact step_ok. Qed.
Print Assumptions C78_step.
(** Copies, assignments and exchanges carry the tensors and the centre, conversions keep the centre. *)
Theorem C78_values : forall T block dflt chk one conv pull push (st : list (chain T)) i j a b,
  nth_error st i = Some a -> nth_error st j = Some b -> centred_ok a -> centred_ok b ->
  let step := step block dflt chk one conv pull push st in
  step (Copy T i) = Ok (st ++ [a]) /\ step (Assign T i j) = Ok (upd st i b) /\ step (Swap T i j) = Ok (upd (upd st i b) j a) /\
  (i <> j -> step (MoveAssign T i j) = Ok (upd (upd st j (mkC [] (centre b))) i b)) /\
  (forall l, Z.of_nat (length (sites a)) < 2 ^ 63 -> rmapM conv (sites a) = Ok l ->
     step (To T i) = Ok (st ++ [mkC l (centre a)]) /\ step (ToIn T i) = Ok (upd st i (mkC l (centre a)))).
Proof.
  intros. split; [apply copy_value; assumption|]. split; [apply assign_value with a; assumption|]. split; [apply swap_value; assumption|].
  split; [apply move_value with a; assumption|]. intros. apply to_value; assumption.
Qed.
Print Assumptions C78_values.
(** What it is for: displacing the centre of a chain stays within the chain exactly when the centre is one of its sites. *)
Theorem C78_move : forall T block pull push (c : chain T) i,
  (centred_ok c -> (forall a b, pull a b <> UB) -> (forall a b, push a b <> UB) -> move_centre block pull push c i <> UB) /\
  (~ centred_ok c -> (forall k, centre c = Some k -> 0 <= k) -> 0 <= i < Z.of_nat (length (sites c)) -> move_centre block pull push c i = UB).
Proof. intros. split; intros; [apply move_centre_defined; assumption|apply move_centre_off; assumption]. Qed.
Print Assumptions C78_move.
(** The displacements of C44 are those of these containers. *)
Theorem C78_dense_move : forall (R : ring) dsvd (l : list (dense R)) k i,
  move_centre false (d_pull (d_svd dsvd) (t_zip false rmul) (@t_tdot R) (@t_conj R) (@t_perm R)) (d_push (d_svd dsvd) (t_zip false rmul) (@t_tdot R) (@t_conj R) (@t_perm R)) (mkC l (Some k)) i =
  rmap (fun '(s, k) => mkC s (Some k)) (mps_move dsvd l k i).
Proof. intros. unfold move_centre, mps_move, rmap, rcentre. cbn [sites centre rbind]. destruct (negb _); [reflexivity|]. destruct (zget l k); [|reflexivity|reflexivity]. cbn [rbind]. destruct (move_to _ _ _ _ _) as [[]| |]; reflexivity. Qed.
Print Assumptions C78_dense_move.
Theorem C78_block_move : forall (G : abgroup) (R : ring) imax dsvd (l : list (btensor G R)) k i,
  move_centre true (b_pull (svd_split dsvd) b_mul (tensordot imax) (@conj G R) b_perm) (b_push (svd_split dsvd) b_mul (tensordot imax) (@conj G R)) (mkC l (Some k)) i =
  rmap (fun '(s, k) => mkC s (Some k)) (bmps_move imax dsvd l k i).
Proof.
  intros. unfold move_centre, bmps_move, rmap, rcentre. cbn [sites centre rbind]. unfold move_to. destruct (negb _); [reflexivity|]. cbn [rbind].
  destruct (i <? k); destruct (moves _ _ _ _ _ _) as [[]| |]; reflexivity.
Qed.
Print Assumptions C78_block_move.
(** The ways out, for every type of tensors: removing tensors, using a variable that was moved from, a constructor that does not check. *)
Theorem C78_shrink_refuted : forall T block dflt chk one conv pull push (t : T), one t = true ->
  let run := run block dflt chk one conv pull push in
  run [New (CFill 2 t 1); Pop T 0; MoveOc T 0 0] [] = UB /\ run [New (CFill 2 t 1); Erase T 0 0 1; MoveOc T 0 0] [] = UB /\
  run [New (CFill 2 t 1); Resize 0 1 t; MoveOc T 0 0] [] = UB /\ run [New (CFill 2 t 1); Clear T 0; Push 0 t; MoveOc T 0 0] [] = UB.
Proof. intros T [] dflt chk one conv pull push t H; cbn; rewrite H; cbn; repeat split. Qed.
Print Assumptions C78_shrink_refuted.
Theorem C78_moved_from_refuted : forall T block dflt chk one conv pull push (t : T), one t = true ->
  let run := run block dflt chk one conv pull push in
  run [New (CFill 2 t 1); Move T 0; Push 0 t; MoveOc T 0 0] [] = UB /\
  run [New (CFill 2 t 1); New (CEmpty T); MoveAssign T 1 0; Push 0 t; MoveOc T 0 0] [] = UB.
Proof. intros T [] dflt chk one conv pull push t H; cbn; rewrite H; cbn; repeat split. Qed.
Print Assumptions C78_moved_from_refuted.
Theorem C78_constructor_refuted : forall T dflt chk one conv pull push (t : T),
  run false dflt chk one conv pull push [New (CSizeOc T 2 7); MoveOc T 0 0] [] = UB /\
  run true dflt chk one conv pull push [New (CSizeOc T 0 1); Push 0 t; MoveOc T 0 0] [] = UB /\
  run true dflt chk one conv pull push [New (CRange [t; t]); MoveOc T 0 0] [] = UB.
Proof. intros. repeat split. Qed.
Print Assumptions C78_constructor_refuted.

(** Two variables of dense tensors given by their sizes: built, copied, exchanged, moved, lengthened. *)
Definition exop : list (op (list nat)) :=
  [New (CList [[1; 2; 3]; [3; 2; 4]; [4; 2; 1]]%nat 2); Copy _ 0; MoveOc _ 0 0; Swap _ 0 1; Push 1 [1; 2; 1]%nat; Erase _ 0 0 0; To _ 0; New (CFill 2 [2; 1; 2]%nat 1); Assign _ 0 3; Insert 3 1 [[2; 5; 2]]%nat; MoveOc _ 3 2].
Definition exrun := run false [] (check_ranks 3) (check_one 3) (fun t => Ok t) (fun a b => Ok (a, b)) (fun a b => Ok (a, b)).
Example C78_ex : exrun exop [] = Ok [mkC [[2; 1; 2]; [2; 1; 2]]%nat (Some 1); mkC [[1; 2; 3]; [3; 2; 4]; [4; 2; 1]; [1; 2; 1]]%nat (Some 0);
  mkC [[1; 2; 3]; [3; 2; 4]; [4; 2; 1]]%nat (Some 2); mkC [[2; 1; 2]; [2; 5; 2]; [2; 1; 2]]%nat (Some 2)].
Proof. vm_compute. reflexivity. Qed.
(** Every operation of the program is harmless where it is executed. *)
Example C78_harmless_ex : forall pre o post s, exop = pre ++ o :: post -> exrun pre [] = Ok s -> harmless false s o.
Proof.
  intros pre o post s E. unfold exop in E.
  repeat (destruct pre as [|x pre]; [injection E as <- <-; try exact (fun _ => I)|injection E as <- E]); [|destruct pre; discriminate].
  intros H. vm_compute in H. injection H as <-. intros c k Hc Hk. injection Hc as <-. injection Hk as <-. left. cbn. lia.
Qed.
(** Refused arguments: a centre off the chain, also a negative one. *)
Example C78_refused_ex : exrun [New (CFill 5 [1; 3; 1]%nat 10)] [] = Throw InvalidArgument /\ exrun [New (CList [[1; 2; 3]; [3; 2; 1]]%nat (-1))] [] = Throw InvalidArgument.
Proof. split; vm_compute; reflexivity. Qed.
