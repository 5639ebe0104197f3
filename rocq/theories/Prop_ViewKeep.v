(** Views that keep the rank (C24). *)
From Verif Require Import Base Quantity QuantityProofs Ring SpecIndex Dense BTensor SpecBTensor BTensorEx SpecReshape View SpecView SpecEdges SpecViewKeep ViewKeep.

(** The dense form of the view is the slice with the fixed dimensions kept at size one; the rule and the quantities of the fixed
    sections stay. Same restrictions as for the other views. *)
Theorem C24_view_keep_partial : forall (G : abgroup) (R : ring) (T : btensor G R) p,
  valid T -> nonempty T -> pat_ok (legs T) p -> tail_single (legs T) p ->
  exists S, basic_create_view T (zpat p) true = Ok S /\ valid S /\ b_rule S = b_rule T /\ legs S = stay p (legs T) /\
    (forall bp op, resolves (legs T) p bp op -> qlegs S = qstay bp (qlegs T) /\
      forall b, in_range (b_sbd S) b = true -> (stored S b <-> stored T (set_at bp b))) /\
    forall D, dense_form T D -> dense_form S (d_view_keep p D).
Proof. exact @view_keep. Qed.
Print Assumptions C24_view_keep_partial.
Example C24_keep_ex : valid exA /\ nonempty exA /\ pat_ok (legs exA) [Some 2; None] /\ tail_single (legs exA) [Some 2; None] /\
  rmap (fun S : zt => (legs S, map (map (fun x => proj1_sig x)) (qlegs S))) (basic_create_view exA [2; -1]%Z true) = Ok ([[1]; [2; 1]], [[1%Z]; [0%Z; (-1)%Z]]) /\
  rmap elems (rbind (basic_create_view exA [2; -1]%Z true) (@to_dense _ _)) = Ok [0; 0; 6]%Z.
Proof.
  split; [apply exA_valid|]. split; [intros l Hl; cbn in Hl; destruct Hl as [<-|[<-|[]]]; cbn; lia|]. split; [cbn; lia|].
  split; [intros i Hi H; exfalso; apply (H 1); [cbn in *; lia|reflexivity]|]. split; vm_compute; reflexivity.
Qed.
(** Column 2 of [exA] cannot be taken. *)
Theorem C24_keep_trailing_refuted : exists (T : zt) p, valid T /\ nonempty T /\ pat_ok (legs T) p /\ basic_create_view T (zpat p) true = Throw InvalidArgument.
Proof.
  exists exA, [None; Some 2]. split; [apply exA_valid|]. split; [intros l Hl; cbn in Hl; destruct Hl as [<-|[<-|[]]]; cbn; lia|]. split; [cbn; lia|].
  destruct (basic_create_view exA (zpat [None; Some 2]) true) eqn:E; apply (f_equal (rmap (fun _ => tt))) in E; vm_compute in E; congruence.
Qed.
Print Assumptions C24_keep_trailing_refuted.
