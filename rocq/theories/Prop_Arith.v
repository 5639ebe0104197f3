(** Property theorems about addition, scalar operations, element-wise maps and permutation (C17, C19, C20, C57, C58). *)
From Verif Require Import Base Quantity QuantityProofs FlatMap SpecFlatMap Ring Index SpecIndex Dense BTensor SpecBTensor
  BTensorThms BTensorEx BTensorArith SpecArith ArithProofs ArithThms.
From Coq Require Import Permutation.

(** C17. *)
Theorem C17_permute : forall G R (T : btensor G R) inp p D, valid T -> names_perm (b_rank T) inp p -> dense_form T D ->
  exists T', permute T inp = Ok T' /\ valid T' /\ b_rule T' = b_rule T /\
    legs T' = map (fun k => nth k (legs T) []) p /\ qlegs T' = map (fun k => nth k (qlegs T) []) p /\ dense_form T' (d_permute p D).
Proof. exact permute_thm. Qed.
Print Assumptions C17_permute.
Theorem C17_permute_inverse : forall G R (T : btensor G R) inp p inp' p', valid T ->
  names_perm (b_rank T) inp p -> names_perm (b_rank T) inp' p' -> (forall k, k < b_rank T -> nth (nth k p' 0) p 0 = k) ->
  exists T' T'', permute T inp = Ok T' /\ permute T' inp' = Ok T'' /\ same_tensor T T''.
Proof. exact permute_inverse. Qed.
Print Assumptions C17_permute_inverse.
Theorem C17_transpose : forall G R (T : btensor G R) x y i j D, valid T -> names_dim (b_rank T) x i -> names_dim (b_rank T) y j -> dense_form T D ->
  exists T' p, transpose T x y = Ok T' /\ valid T' /\ Permutation p (seq 0 (b_rank T)) /\
    (forall k, k < b_rank T -> nth k p 0 = if k =? j then i else if k =? i then j else k) /\ dense_form T' (d_permute p D).
Proof. exact transpose_thm. Qed.
Print Assumptions C17_transpose.
Example C17_ex : valid exA /\ names_perm (b_rank exA) [-1; 0]%Z [1; 0] /\
  rmap elems (rbind (permute exA [-1; 0]%Z) (@to_dense _ _)) = Ok [3; 0; 0; 4; 0; 0; 0; 5; 6]%Z.
Proof.
  split; [apply exA_valid|]. split; [|vm_compute; reflexivity]. split; [repeat constructor; cbn; lia|]. apply perm_swap.
Qed.

(** C19. *)
Theorem C19_add : forall G R (a b : btensor G R) Da Db, valid a -> valid b -> same_meta a b -> dense_form a Da -> dense_form b Db ->
  exists out, bt_add a b ro = Ok out /\ same_meta a out /\ valid out /\ dense_form out (d_zip radd Da Db).
Proof. exact add_dense. Qed.
Print Assumptions C19_add.
(** The rvalue overload reads the first block of the result unconditionally. *)
Theorem C19_add_rvalue_refuted : forall G R (a b : btensor G R) alpha, valid a -> valid b -> same_meta a b ->
  (bt_add_rvalue a b alpha = UB <-> b_blocks a = [] /\ b_blocks b = []).
Proof. exact add_rvalue_UB. Qed.
Print Assumptions C19_add_rvalue_refuted.
Example C19_ex : valid exC /\ valid exB /\ same_meta exC exB /\
  rmap elems (rbind (bt_add exC exB 1%Z) (@to_dense _ _)) = Ok [1; 2; 0; 0; 0; 7; 0; 0; 8]%Z.
Proof. split; [apply exC_valid|]. split; [apply exB_valid|]. split; [repeat split|vm_compute; reflexivity]. Qed.

(** C20. Full claim: dense form [Da + alpha*Db] for every sparsity pattern. True when every block of [a] has a block of [b]
    at an index that is not greater; a block of [a] in front of all the blocks of [b] is multiplied by [alpha]. *)
Theorem C20_axpy_partial : forall G R (a b : btensor G R) alpha Da Db, valid a -> valid b -> same_meta a b -> dense_form a Da -> dense_form b Db ->
  (forall k t, In (k, t) (b_blocks a) -> exists k' t', In (k', t') (b_blocks b) /\ lexb k k' = false) ->
  exists out, bt_add a b alpha = Ok out /\ same_meta a out /\ valid out /\
    dense_form out (d_zip (fun x y => radd x (rmul alpha y)) Da Db).
Proof. exact axpy_dense. Qed.
Print Assumptions C20_axpy_partial.
(** The exact result for every pair of patterns. *)
Theorem C20_axpy_exact_partial : forall G R (a b : btensor G R) alpha, valid a -> valid b -> same_meta a b ->
  exists out, bt_add a b alpha = Ok out /\ same_meta a out /\ valid out /\
  (forall k, assoc leqb k (b_blocks out) = None <-> assoc leqb k (b_blocks a) = None /\ assoc leqb k (b_blocks b) = None) /\
  forall k o, bentry out k o =
    if match assoc leqb k (b_blocks b) with None => forallb (fun y => lexb k (fst y)) (b_blocks b) | Some _ => false end
    then rmul (bentry a k o) alpha
    else radd (bentry a k o) (rmul alpha (bentry b k o)).
Proof. exact add_exact. Qed.
Print Assumptions C20_axpy_exact_partial.
Theorem C20_sub_refuted : exists (a b : zt) Da Db Do out, valid a /\ valid b /\ same_meta a b /\ to_dense a = Ok Da /\ to_dense b = Ok Db /\
  bt_sub a b 1%Z = Ok out /\ to_dense out = Ok Do /\ elems Da = [1; 2; 0; 0; 0; 0; 0; 0; 0]%Z /\ elems Db = [0; 0; 0; 0; 0; 7; 0; 0; 8]%Z /\
  elems Do = [-1; -2; 0; 0; 0; -7; 0; 0; -8]%Z.
Proof. exact sub_refuted. Qed.
Print Assumptions C20_sub_refuted.
Theorem C20_sub_empty_refuted : forall G R (T : btensor G R), valid T -> exists out, bt_sub T (sparse_zeros_like T) ro = Ok out /\
  forall k o, bentry out k o = ropp (bentry T k o).
Proof. exact sub_empty. Qed.
Print Assumptions C20_sub_empty_refuted.
Example C20_ex : valid exA /\ valid exC /\ same_meta exA exC /\
  (forall k t, In (k, t) (b_blocks exA) -> exists k' t', In (k', t') (b_blocks exC) /\ lexb k k' = false) /\
  rmap elems (rbind (bt_add exA exC 10%Z) (@to_dense _ _)) = Ok [13; 24; 0; 0; 0; 5; 0; 0; 6]%Z.
Proof.
  split; [apply exA_valid|]. split; [apply exC_valid|]. split; [repeat split|]. split; [|vm_compute; reflexivity].
  intros k t [[= <- _]|[[= <- _]|[]]]; eexists _, _; (split; [left; reflexivity|reflexivity]).
Qed.

(** C57. Multiplication by a scalar and element-wise maps. *)
Theorem C57_mul_scalar : forall G R (T : btensor G R) c D, valid T -> dense_form T D ->
  valid (bt_mul_scalar T c) /\ dense_form (bt_mul_scalar T c) (d_map (fun x => rmul x c) D).
Proof. exact mul_scalar_dense. Qed.
Print Assumptions C57_mul_scalar.
Theorem C57_elementwise_partial : forall G (R : ring) (f : R -> R) (T : btensor G R) D, valid T -> dense_form T D ->
  (dense_form (bt_elementwise f T) (d_map f D) <->
   f rz = rz \/ forall b o, in_range (b_sbd T) b = true -> in_range (pick 0 (legs T) b) o = true -> assoc leqb b (b_blocks T) <> None).
Proof. exact elementwise_iff. Qed.
Print Assumptions C57_elementwise_partial.
Theorem C57_elementwise_valid : forall G (R : ring) (f : R -> R) (T : btensor G R), valid T ->
  valid (bt_elementwise f T) /\ same_meta T (bt_elementwise f T).
Proof. exact elementwise_valid. Qed.
Print Assumptions C57_elementwise_valid.
(** [pow(0)] maps zero to one. *)
Theorem C57_elementwise_refuted : exists (T : zt) D, valid T /\ dense_form T D /\
  ~ dense_form (bt_elementwise (fun _ : ring_Z => (1%Z : ring_Z)) T) (d_map (fun _ : ring_Z => (1%Z : ring_Z)) D).
Proof. exact elementwise_refuted. Qed.
Print Assumptions C57_elementwise_refuted.
Example C57_ex : valid exA /\ rmap elems (to_dense (bt_mul_scalar exA 2%Z)) = Ok [6; 8; 0; 0; 0; 10; 0; 0; 12]%Z /\
  rmap elems (to_dense (bt_elementwise (fun x : ring_Z => (x * x)%Z : ring_Z) exA)) = Ok [9; 16; 0; 0; 0; 25; 0; 0; 36]%Z.
Proof. split; [apply exA_valid|]. split; vm_compute; reflexivity. Qed.

(** C58. Adding a constant. *)
Theorem C58_add_scalar : forall G R (T : btensor G R) c alpha, valid T -> (forall n, In n (b_sbd T) -> 0 < n) ->
  exists out out', bt_add_scalar T c alpha = Ok out /\ bt_add_scalar_ T c alpha = Ok out' /\ same_meta T out /\ same_meta T out' /\ valid out /\ valid out' /\
  forall b o, in_range (b_sbd T) b = true -> in_range (pick 0 (legs T) b) o = true ->
    (allowed T b -> bentry out b o = radd (bentry T b o) (rmul c alpha) /\ bentry out' b o = radd (bentry T b o) (rmul c alpha)) /\
    (~ allowed T b -> bentry out b o = rz /\ bentry out' b o = rz).
Proof. exact add_scalar_entry. Qed.
Print Assumptions C58_add_scalar.
Example C58_ex : valid exC /\ (forall n, In n (b_sbd exC) -> 0 < n) /\
  rmap elems (rbind (bt_add_scalar exC 5%Z 1%Z) (@to_dense _ _)) = Ok [6; 7; 0; 0; 0; 5; 0; 0; 5]%Z.
Proof. split; [apply exC_valid|]. split; [intros n [<-|[<-|[]]]; lia|vm_compute; reflexivity]. Qed.
