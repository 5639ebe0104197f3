(** What type-erased quantities should do, said of the values of the variables only: no cells, no pointers. *)
From Verif Require Import Base Quantity Erased.
Set Implicit Arguments.

Section SE.
  Variable F : family.
  Notation qv := (qv F).

  (** What each variable holds; [None]: it was moved from. *)
  Definition store := list (option qv).
  Definition at_ (w : store) (i : nat) (v : qv) : Prop := nth_error w i = Some (Some v).
  Definition same (v u : qv) : Prop := projT1 v = projT1 u.
  (** [x] is the product of [v] and [u] in the group of both. *)
  Definition product (v u x : qv) : Prop :=
    exists t (a b : f_grp F t), v = existT _ t a /\ u = existT _ t b /\ x = existT _ t (qop (f_grp F t) a b).
  Definition inverse_of (v x : qv) : Prop := exists t (a : f_grp F t), v = existT _ t a /\ x = existT _ t (qinv (f_grp F t) a).
  Definition neutral_of (v x : qv) : Prop := exists t (a : f_grp F t), v = existT _ t a /\ x = existT _ t (qe (f_grp F t)).
  Definition the_one (v : qv) : Prop := v = existT _ (f_one F) (qe (f_grp F (f_one F))).
  Notation BAD := (Some BadCast).

  (** [vstep w o e w']: with the values [w], the operation [o] leaves the values [w'] and throws [e]. *)
  Inductive vstep (w : store) : op F -> option exn -> store -> Prop :=
  | V_val v : vstep w (NewVal v) None (w ++ [Some v])
  | V_default v : the_one v -> vstep w (NewDefault F) None (w ++ [Some v])
  | V_ref i v : at_ w i v -> vstep w (NewRef F (Var i)) None (w ++ [Some v])
  | V_copy i v : at_ w i v -> vstep w (NewCopy F i) None (w ++ [Some v])
  | V_copy_moved i v : nth_error w i = Some None -> the_one v -> vstep w (NewCopy F i) None (w ++ [Some v])
  | V_move i c : nth_error w i = Some c -> vstep w (NewMove F i) None (upd w i None ++ [c])
  | V_assign i j v u : at_ w i v -> at_ w j u -> same v u -> vstep w (AssignCopy F i j) None (upd w i (Some u))
  | V_assign_bad i j v u : at_ w i v -> at_ w j u -> ~ same v u -> vstep w (AssignCopy F i j) BAD w
  | V_assign_move i j c d : nth_error w i = Some c -> nth_error w j = Some d -> vstep w (AssignMove F i j) None (upd (upd w i d) j c)
  | V_assign_ref i j c u : nth_error w i = Some c -> at_ w j u -> vstep w (AssignRef F i (Var j)) None (upd w i (Some u))
  | V_swap i j c d : nth_error w i = Some c -> nth_error w j = Some d -> vstep w (SwapVar F i j) None (upd (upd w i d) j c)
  | V_swap_ref i j v u : at_ w i v -> at_ w j u -> same v u -> vstep w (SwapRef F (Var i) (Var j)) None (upd (upd w i (Some u)) j (Some v))
  | V_swap_ref_bad i j v u : at_ w i v -> at_ w j u -> ~ same v u -> vstep w (SwapRef F (Var i) (Var j)) BAD w
  | V_op i j v u x : at_ w i v -> at_ w j u -> product v u x -> vstep w (OpEq F (Var i) (Var j)) None (upd w i (Some x))
  | V_op_bad i j v u : at_ w i v -> at_ w j u -> ~ same v u -> vstep w (OpEq F (Var i) (Var j)) BAD w
  | V_cond i j v u x : at_ w i v -> at_ w j u -> product v u x -> vstep w (OpCond F (Var i) (Var j) true) None (upd w i (Some x))
  | V_cond_not i j v u : at_ w i v -> at_ w j u -> same v u -> vstep w (OpCond F (Var i) (Var j) false) None w
  | V_cond_bad i j c v u : at_ w i v -> at_ w j u -> ~ same v u -> vstep w (OpCond F (Var i) (Var j) c) BAD w
  | V_inv_in i v x : at_ w i v -> inverse_of v x -> vstep w (InvIn F (Var i)) None (upd w i (Some x))
  | V_mul i j v u x : at_ w i v -> at_ w j u -> product v u x -> vstep w (Mul F (Var i) (Var j)) None (w ++ [Some x])
  | V_mul_bad i j v u : at_ w i v -> at_ w j u -> ~ same v u -> vstep w (Mul F (Var i) (Var j)) BAD w
  | V_mul_to i j v u x : at_ w i v -> at_ w j u -> product v u x -> vstep w (MulTo F (Var i) j) None (upd w j None ++ [Some x])
  | V_mul_to_bad i j v u : at_ w i v -> at_ w j u -> ~ same v u -> vstep w (MulTo F (Var i) j) BAD w
  | V_mul_from i j v u x : at_ w i v -> at_ w j u -> product v u x -> vstep w (MulFrom F i (Var j)) None (upd w i None ++ [Some x])
  | V_mul_from_bad i j v u : at_ w i v -> at_ w j u -> ~ same v u -> vstep w (MulFrom F i (Var j)) BAD w
  | V_inv i v x : at_ w i v -> inverse_of v x -> vstep w (Inv F (Var i)) None (w ++ [Some x])
  | V_inv_moved i v x : nth_error w i = Some None -> the_one v -> inverse_of v x -> vstep w (Inv F (Var i)) None (w ++ [Some x])
  | V_inv_from i v x : at_ w i v -> inverse_of v x -> vstep w (InvFrom F i) None (upd w i None ++ [Some x])
  | V_neutral i v x : at_ w i v -> neutral_of v x -> vstep w (Neutral F (Var i)) None (w ++ [Some x])
  | V_destroy i c : nth_error w i = Some c -> vstep w (Destroy F i) None (upd w i None).

  Inductive vruns : store -> list (op F) -> list (option exn) -> store -> Prop :=
  | VR_nil w : vruns w [] [] w
  | VR_cons w o e w1 l t w2 : vstep w o e w1 -> vruns w1 l t w2 -> vruns w (o :: l) (e :: t) w2.

  (** Operations and programs on variables only. *)
  Definition plain_arg (a : arg) : Prop := match a with Var _ => True | Ref _ => False end.
  Definition plain (o : op F) : Prop :=
    match o with
    | NewRef _ a | AssignRef _ _ a | InvIn _ a | MulTo _ a _ | MulFrom _ _ a | Inv _ a | Neutral _ a => plain_arg a
    | SwapRef _ a b | OpEq _ a b | OpCond _ a b _ | Mul _ a b => plain_arg a /\ plain_arg b
    | SetRef _ _ _ | TakeRef _ _ => False
    | _ => True
    end.

  (** The values held in a state. *)
  Definition holds (s : st F) (c : option nat) : option qv :=
    match c with Some p => match nth_error (heap s) p with Some c => c | None => None end | None => None end.
  Definition values (s : st F) : store := map (holds s) (vars s).

  (** Every cell in use belongs to exactly one variable, and a variable that is not null has its cell: nothing is leaked, shared or dangling. *)
  Definition owned (s : st F) : Prop :=
    (forall p, (exists v, nth_error (heap s) p = Some (Some v)) <-> exists i, nth_error (vars s) i = Some (Some p)) /\
    (forall i j p, nth_error (vars s) i = Some (Some p) -> nth_error (vars s) j = Some (Some p) -> i = j).

  (** The operations that leave variable [i] its cell. *)
  Definition keeps (i : nat) (o : op F) : Prop :=
    match o with
    | NewMove _ j | AssignRef _ j _ | MulTo _ _ j | MulFrom _ j _ | InvFrom _ j | Destroy _ j => j <> i
    | AssignMove _ j k | SwapVar _ j k => j <> i /\ k <> i
    | _ => True
    end.
  (** The operations that make a reference: the references of a program are numbered in the order in which they are made. *)
  Definition is_take (o : op F) : bool := match o with TakeRef _ _ => true | _ => false end.
End SE.
