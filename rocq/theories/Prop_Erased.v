(** C81: type-erased quantities have the values of the groups they erase. *)
From Verif Require Import Base Quantity QuantityProofs Erased SpecErased ErasedThms ErasedRefs.

(** From every state a program can reach, also one that uses references, a program on variables throws the exceptions and leaves the values of the
    specification, and is undefined exactly when the specification has no outcome. *)
Theorem C81_values : forall F l0 t0 s0 l, run l0 (start F) = Some (t0, s0) -> Forall (@plain F) l ->
  forall t w, (exists s, run l s0 = Some (t, s) /\ values s = w) <-> vruns (values s0) l t w.
Proof. exact program_values_from. Qed.
Print Assumptions C81_values.

Theorem C81_memory : forall F l t s, run l (start F) = Some (t, s) -> owned s.
Proof. exact program_owned. Qed.
Print Assumptions C81_memory.

Theorem C81_compare : forall F A (f : forall t, f_grp F t -> f_grp F t -> A) l t s i j, run l (start F) = Some (t, s) ->
  (forall g (a b : f_grp F g), at_ (values s) i (existT _ g a) -> at_ (values s) j (existT _ g b) -> observe f s (Var i) (Var j) = Ok (f g a b)) /\
  (forall x y, at_ (values s) i x -> at_ (values s) j y -> ~ same x y -> observe f s (Var i) (Var j) = Throw BadCast).
Proof. exact program_compare. Qed.
Print Assumptions C81_compare.

(** A reference stands for its variable as long as the variable is not moved, swapped, destroyed or assigned from a reference. *)
Theorem C81_references_partial : forall F l1 i l2 t s, run (l1 ++ TakeRef F i :: l2) (start F) = Some (t, s) -> Forall (keeps i) l2 ->
  let r := length (filter (@is_take F) l1) in
  (exists v, value_of s (Ref r) = Ok v /\ at_ (values s) i v) /\
  (forall b, step s (OpEq F (Ref r) b) = step s (OpEq F (Var i) b) /\ step s (OpEq F b (Ref r)) = step s (OpEq F b (Var i))) /\
  step s (InvIn F (Ref r)) = step s (InvIn F (Var i)) /\
  (forall j, step s (SetRef F r (Var j)) = step s (AssignCopy F i j)) /\
  (forall b, step s (SwapRef F (Ref r) b) = step s (SwapRef F (Var i) b)) /\
  (forall b, step s (Mul F (Ref r) b) = step s (Mul F (Var i) b)).
Proof. exact alias. Qed.
Print Assumptions C81_references_partial.

(** Not for every program: [swap(a, b)] takes the reference to [b], [a = cref] and [a = a * b] leave it dangling. *)
Theorem C81_references_refuted : forall F (v u : qv F), same v u ->
  (exists s, run [NewVal v; NewVal u; TakeRef F 0; SwapVar F 0 1] (start F) = Some ([None; None; None; None], s) /\ value_of s (Ref 0) = Ok v /\ values s = [Some u; Some v]) /\
  (exists s, run [NewVal v; NewVal u; TakeRef F 0; AssignRef F 0 (Var 1)] (start F) = Some ([None; None; None; None], s) /\ value_of s (Ref 0) = UB /\ values s = [Some u; Some u]) /\
  (exists s x, run [NewVal v; NewVal u; TakeRef F 0; Mul F (Var 0) (Var 1); AssignMove F 0 2; Destroy F 2] (start F) = Some ([None; None; None; None; None; None], s) /\
    product v u x /\ values s = [Some x; Some u; None] /\ value_of s (Ref 0) = UB).
Proof. exact references_fail. Qed.
Print Assumptions C81_references_refuted.

(** The documentation: "These assigment operator can change the underlying type of *this". *)
Theorem C81_assign_refuted : forall F (v u : qv F), ~ same v u ->
  exists s, run [NewVal v; NewVal u; AssignCopy F 0 1] (start F) = Some ([None; None; Some BadCast], s) /\ values s = [Some v; Some u].
Proof. exact assign_type. Qed.
Print Assumptions C81_assign_refuted.

(** A variable that was moved from can not be assigned a variable. *)
Theorem C81_moved_refuted : forall F (v : qv F),
  run [NewVal v; NewMove F 0; AssignCopy F 0 1] (start F) = None /\
  (forall b, run [NewVal v; NewMove F 0; OpEq F (Var 0) b] (start F) = None) /\
  run [NewVal v; NewVal v; MulTo F (Var 0) 1; AssignCopy F 1 0] (start F) = None.
Proof. exact moved_fail. Qed.
Print Assumptions C81_moved_refuted.

(** Charges and charges with a parity. *)
Definition fam : family := {| f_ty := bool; f_dec := Bool.bool_dec; f_grp := fun b => if b then z_group else unit_group; f_one := false |}.
Definition charge (x : z_group) : qv fam := existT (fun t => f_grp fam t) true x.
Definition nothing : qv fam := existT (fun t => f_grp fam t) false (qe unit_group).
Example C81_ex (x : z_group) : exists s,
  run [NewVal (charge x); NewCopy fam 0; OpEq fam (Var 0) (Var 1); MulTo fam (Var 1) 0; NewDefault fam; OpEq fam (Var 3) (Var 1); AssignRef fam 0 (Var 1)] (start fam) =
    Some ([None; None; None; None; None; Some BadCast; None], s) /\
  values s = [Some (charge x); Some (charge x); Some (charge (qop z_group x (qop z_group x x))); Some nothing].
Proof.
  apply (C81_values fam [] [] (start fam) _ eq_refl); [repeat constructor|].
  assert (P : forall a b, product (charge a) (charge b) (charge (qop z_group a b))) by (intros a b; exists true, a, b; auto).
  repeat (eapply VR_cons; [econstructor; first [reflexivity|apply P|intros H; discriminate H]|]); apply VR_nil.
Qed.
Example C81_ex_ref (x : z_group) : exists t s, run ([NewVal (charge x)] ++ TakeRef fam 0 :: [OpEq fam (Ref 0) (Var 0); InvIn fam (Ref 0)]) (start fam) = Some (t, s) /\
  Forall (keeps 0) [OpEq fam (Ref 0) (Var 0); InvIn fam (Ref 0)] /\ ~ same (charge x) nothing.
Proof. eexists _, _. split; [reflexivity|]. split; [repeat constructor|]. intros H; discriminate H. Qed.
