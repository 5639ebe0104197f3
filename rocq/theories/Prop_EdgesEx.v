(** Counterexamples and examples for Prop_Edges.v. *)
From Verif Require Import Base Quantity QuantityProofs Ring Index SpecIndex Dense BTensor SpecBTensor BTensorThms BTensorThms2 BTensorEx BTensorArith Tensordot SpecTensordot View SpecView
  Chain SpecChain ChainInst ChainEnd Prop_Chain Edges SpecEdges EdgesProofs EdgesBlock Prop_Edges.

(** The dense form of a concrete tensor. *)
Definition dd (T : zt) : dense ring_Z := match to_dense T with Ok D => D | _ => d_zeros [] end.
Lemma dd_stored imax (T : zt) : valid T -> forallb (fun s => s <=? imax) (b_sbd T) = true -> stored imax T (dd T).
Proof.
  intros V H. destruct (@to_dense_total _ _ T V) as (D & E & HD & _). unfold dd. rewrite E. split; [exact V|]. split; [exact HD|]. rewrite forallb_forall in H. intros s Hs. apply Nat.leb_le, H, Hs.
Qed.
(** The state 2 |01> + 3 |10> of exs1 and exs2, its bond listed in the other order. *)
Definition exp1 : zt := zB (q 0) 3 [1; 2; 2] [1; 1; 1; 1; 1] [q 0; q 0; q 1; q (-1); q 0] [([0; 0; 1], dl [1; 1; 1] [2]%Z); ([0; 1; 0], dl [1; 1; 1] [1]%Z)].
Definition exp2 : zt := zB (q 0) 3 [2; 2; 1] [1; 1; 1; 1; 1] [q 1; q 0; q 0; q 1; q (-1)] [([0; 0; 0], dl [1; 1; 1] [3]%Z); ([1; 1; 0], dl [1; 1; 1] [1]%Z)].
Ltac ss := cbn [map]; repeat (apply Forall2_cons; [apply dd_stored; [ex_valid|reflexivity]|]); apply Forall2_nil.
Ltac ne := repeat (apply Forall_cons; [let l := fresh in let K := fresh in intros l K; cbn in K; repeat destruct K as [<-|K]; try destruct K; cbn; lia|]); apply Forall_nil.
Ltac legs_eq2 := cbv [blegs legs qlegs]; cbn [b_sbd b_ss b_cv unpack firstn skipn combine exs1 exs2 exp1 exp2];
  repeat (apply f_equal2; [apply zleg_eq; vm_compute; reflexivity|]); reflexivity.
Theorem C46_block_default_refuted : exists (a b : list zt) Da Db x x' s,
  Forall2 (stored 10) a Da /\ Forall2 (stored 10) b Db /\ Forall nonempty a /\ Forall nonempty b /\ bfit a x x' /\ bfit b x x' /\ same_phys (@blegs _ _) a b /\
  closed_overlap Da Db (@bsz _ x) (@bsz _ x') = 13%Z /\ b_contract_default 10 a b = Ok s /\ rmap elems (to_dense s) = Ok [0]%Z.
Proof.
  assert (H : rmap elems (rbind (b_contract_default 10 [exs1; exs2] [exp1; exp2]) (@to_dense _ _)) = Ok [0]%Z) by (vm_compute; reflexivity).
  destruct (b_contract_default 10 [exs1; exs2] [exp1; exp2]) as [s| |] eqn:E; [|discriminate H|discriminate H].
  exists [exs1; exs2], [exp1; exp2], (map dd [exs1; exs2]), (map dd [exp1; exp2]), ([1], [q 0]), ([1], [q (-1)]), s.
  split. { ss. } split. { ss. }
  split. { ne. }
  split. { ne. }
  split. { exists ([1; 1], [q 0; q 1]), ([1; 1], [q 0; q (-1)]). split; [legs_eq2|]. exists ([1; 1], [q 0; q 1]), ([1], [q (-1)]). split; [legs_eq2|]. reflexivity. }
  split. { exists ([1; 1], [q 0; q 1]), ([1; 1], [q (-1); q 0]). split; [legs_eq2|]. exists ([1; 1], [q 0; q 1]), ([1], [q (-1)]). split; [legs_eq2|]. reflexivity. }
  split. { split; [vm_compute; reflexivity|]. split; [vm_compute; reflexivity|exact I]. }
  split; [vm_compute; reflexivity|]. split; [exact E|].
  exact H.
Qed.
Print Assumptions C46_block_default_refuted.
(** An operator whose bonds carry one quantum: the value depends on the order in which arguments are evaluated. *)
Definition exc : zt := zB (q 0) 4 [1; 2; 1; 2] [1; 1; 1; 1; 1; 1] [q 1; q 0; q 1; q (-1); q 0; q (-1)] [([0; 0; 0; 0], dl [1; 1; 1; 1] [1%Z]); ([0; 1; 0; 1], dl [1; 1; 1; 1] [2%Z])].
Theorem C46_block_obs_default_refuted : exists (a h : list zt) Da Dh x o x' o' s s',
  Forall2 (stored 10) a Da /\ Forall2 (stored 10) h Dh /\ Forall nonempty a /\ Forall nonempty h /\ bfit a x x' /\ bfitop h a a o o' /\
  closed_element Da Da Dh (@bsz _ x) (@bsz _ o) (@bsz _ x') (@bsz _ o') = 26%Z /\
  b_contract_obs_default 10 true a a h = Ok s /\ rmap elems (to_dense s) = Ok [26]%Z /\
  b_contract_obs_default 10 false a a h = Ok s' /\ rmap elems (to_dense s') = Ok [0]%Z.
Proof.
  assert (H : rmap elems (rbind (b_contract_obs_default 10 true [exs1; exs2] [exs1; exs2] [exc; exc]) (@to_dense _ _)) = Ok [26]%Z) by (vm_compute; reflexivity).
  assert (H' : rmap elems (rbind (b_contract_obs_default 10 false [exs1; exs2] [exs1; exs2] [exc; exc]) (@to_dense _ _)) = Ok [0]%Z) by (vm_compute; reflexivity).
  destruct (b_contract_obs_default 10 true [exs1; exs2] [exs1; exs2] [exc; exc]) as [s| |] eqn:E; [|discriminate H|discriminate H].
  destruct (b_contract_obs_default 10 false [exs1; exs2] [exs1; exs2] [exc; exc]) as [s'| |] eqn:E'; [|discriminate H'|discriminate H'].
  exists [exs1; exs2], [exc; exc], (map dd [exs1; exs2]), (map dd [exc; exc]), ([1], [q 0]), ([1], [q (-1)]), ([1], [q (-1)]), ([1], [q (-1)]), s, s'.
  split. { ss. } split. { ss. }
  split. { ne. }
  split. { ne. }
  split. { exists ([1; 1], [q 0; q 1]), ([1; 1], [q 0; q (-1)]). split; [legs_eq2|]. exists ([1; 1], [q 0; q 1]), ([1], [q (-1)]). split; [legs_eq2|]. reflexivity. }
  split. { exists ([1], [q (-1)]), ([1; 1], [q 0; q 1]), ([1; 1], [q 0; q 1]). cbn [exc]. split; [cbv [blegs legs qlegs]; cbn [b_sbd b_ss b_cv unpack firstn skipn combine exc]; repeat (apply f_equal2; [apply zleg_eq; vm_compute; reflexivity|]); reflexivity|]. split; [reflexivity|]. split; [reflexivity|].
    exists ([1], [q (-1)]), ([1; 1], [q 0; q 1]), ([1; 1], [q 0; q 1]). split; [cbv [blegs legs qlegs]; cbn [b_sbd b_ss b_cv unpack firstn skipn combine exc]; repeat (apply f_equal2; [apply zleg_eq; vm_compute; reflexivity|]); reflexivity|]. split; [reflexivity|]. split; reflexivity. }
  split; [vm_compute; reflexivity|].
  split; [exact E|]. split; [exact H|]. split; [exact E'|exact H'].
Qed.
Print Assumptions C46_block_obs_default_refuted.
Example C46_dense_default_ex : dfit [exa1; exa2] 1 1 /\ dfit [exb1; exb2] 1 1 /\ same_phys (@dsh _) [exa1; exa2] [exb1; exb2] /\ dfitop [exh1; exh2] [exa1; exa2] [exb1; exb2] 1 1 /\
  rmap (fun s : dense ring_Zi => dv s []) (d_contract_default 1 [exa1; exa2] [exb1; exb2]) = Ok (1, -7)%Z /\ closed_overlap [exa1; exa2] [exb1; exb2] 1 1 = (1, -7)%Z /\
  rmap (fun s : dense ring_Zi => dv s []) (d_contract_obs_default 1 [exa1; exa2] [exb1; exb2] [exh1; exh2]) = Ok (16, 14)%Z.
Proof. split; [fits|]. split; [fits|]. split; [fits|]. split; [fits|]. split; [vm_compute; reflexivity|]. split; vm_compute; reflexivity. Qed.
(** The default contraction of a state with itself: its rules agree. *)
Example C46_block_default_ex : rmap elems (rbind (b_contract_default 10 [exs1; exs2] [exs1; exs2]) (@to_dense _ _)) = Ok [13]%Z /\
  exists r r', edge_rule lpat exs1 r /\ edge_rule rpat exs2 r'.
Proof.
  split; [vm_compute; reflexivity|]. exists (q 0), (q 0).
  split; [exists [None; Some 0; Some 0], [None; Some 0; Some 0]|exists [Some 0; Some 0; None], [Some 0; Some 0; None]]; (split; [cbn; unfold located; cbn; intuition lia|apply sig_eq; vm_compute; reflexivity]).
Qed.
Example C63_ex : ts_shape_from 0 [2; 3; 5; 7] [0; -1; 4; -1]%Z = Ok [3; 7] /\ ts_shape_from 0 [2; 3; 5; 7] [-1; 0; -1; 3]%Z = UB /\ ts_shape_from 1 [2; 3; 5; 7] [-1; 0; -1; 3]%Z = Ok [2; 5] /\
  tail_fixed [None; Some 0; None; Some 3] /\ ~ tail_fixed [Some 0; None; Some 4; None].
Proof.
  repeat (split; [vm_compute; reflexivity|]). split; [split; [left; reflexivity|exists [None; Some 0; None], 3; reflexivity]|].
  intros [_ (p & a & H)]. change [Some 0; None; Some 4; None] with ([Some 0; None; Some 4] ++ [@None nat]) in H. apply app_inj_tail in H as [_ H]. discriminate.
Qed.
Example C64_ex : rmap (fun S : zt => (b_sbd S, b_ss S, map (fun x : z_group => proj1_sig x) (b_cv S), proj1_sig (b_rule S))) (shape_from_list [exs1; exs2; exc]) =
  Ok ([1; 2; 2; 2; 2; 1; 1; 2; 1; 2], repeat 1 16, [0; 0; 1; 0; -1; 0; 1; 0; 1; -1; 1; 0; 1; -1; 0; -1]%Z, 0%Z).
Proof. vm_compute. reflexivity. Qed.
Example C65_ex : nth 0 (blegs exc) ([], []) = ([1], [q 1]) /\ rmap elems (rbind (rbind (edge_shape_prep true exc 0) (fun S => full_like S 1%Z)) (@to_dense _ _)) = Ok [1]%Z /\
  rmap elems (rbind (rbind (edge_shape_prep false exc 0) (fun S => full_like S 1%Z)) (@to_dense _ _)) = Ok [0]%Z.
Proof. split; [apply zleg_eq; vm_compute; reflexivity|]. split; vm_compute; reflexivity. Qed.
