(** Property theorems about views, assignment through views, and squeeze (C24, C25, C26, C54). *)
From Verif Require Import Base Quantity QuantityProofs FlatMap SpecFlatMap Ring Index SpecIndex Dense BTensor SpecBTensor
  BTensorThms BTensorEx BTensorArith Tensordot Reshape SpecReshape View SpecView ViewProofs ViewThms ViewPut.

(** C25. Full claim: for every tensor and pattern. True when no dimension is without sections; patterns that do not fit are
    refused for every tensor. *)
Theorem C25_shape_partial : forall G R (T : btensor G R) p, meta_ok T -> pat_ok (legs T) p -> (forall n, In n (b_sbd T) -> 0 < n) ->
  exists S, shape_from T (zpat p) = Ok S /\ valid S /\ b_blocks S = [] /\ view_meta p T S.
Proof. exact (@shape_from_spec). Qed.
Print Assumptions C25_shape_partial.
Theorem C25_rejects : forall G R (T : btensor G R) p, meta_ok T -> ~ pat_ok (legs T) p -> shape_from T (zpat p) = Throw InvalidArgument.
Proof. exact (@shape_from_rejects). Qed.
Print Assumptions C25_rejects.
(** A kept last dimension without sections: the quantity of its section 0 is read past the end. *)
Definition exNoSec : zt := zB (q 0) 1 [0] [] [] [].
Theorem C25_no_section_refuted : exists T : zt, valid T /\ pat_ok (legs T) [None] /\ shape_from T (zpat [None]) = UB.
Proof. exists exNoSec. split; [ex_valid|]. split; [exact I|reflexivity]. Qed.
Print Assumptions C25_no_section_refuted.
Example C25_ex : meta_ok exA /\ pat_ok (legs exA) [Some 2; None] /\ resolves (legs exA) [Some 2; None] [Some 1; None] [Some 1; None] /\
  rmap (fun T : zt => (b_sbd T, b_ss T, proj1_sig (b_rule T))) (shape_from exA [2; -1]%Z) = Ok ([2], [2; 1], (-1)%Z).
Proof. split; [repeat split|]. split; [cbn; lia|]. split; [cbn; unfold located; cbn; lia|]. vm_compute. reflexivity. Qed.
Example C25_reject_ex : ~ pat_ok (legs exA) [Some 3; None].
Proof. cbn. lia. Qed.

(** C24. Full claim: for every valid tensor and pattern. True when the dimensions fixed after the last kept one have one
    section each (in particular when the last dimension is kept) and no dimension is without sections. *)
Theorem C24_view_partial : forall G R (T : btensor G R) p, valid T -> pat_ok (legs T) p -> (forall n, In n (b_sbd T) -> 0 < n) ->
  tail_single (legs T) p ->
  exists S, basic_create_view T (zpat p) false = Ok S /\ valid S /\ view_meta p T S /\
    (forall bp op, resolves (legs T) p bp op ->
      (forall k, in_range (b_sbd S) k = true -> (stored S k <-> stored T (fill bp k))) /\
      forall k o, in_range (b_sbd S) k = true -> in_range (pick 0 (legs S) k) o = true ->
        bentry S k o = bentry T (fill bp k) (fill op o)) /\
    forall D, dense_form T D -> dense_form S (d_view p D).
Proof. exact (@create_view_spec). Qed.
Print Assumptions C24_view_partial.
(** Column 2 of [exA] is (0, 5, 6): the view also contains 3, from a block of another column, and is not a valid tensor. *)
Theorem C24_trailing_refuted : exists (T : zt) p S, valid T /\ pat_ok (legs T) p /\ (forall n, In n (b_sbd T) -> 0 < n) /\
  basic_create_view T (zpat p) false = Ok S /\ ~ valid S /\
  exists D, to_dense T = Ok D /\ elems (d_view p D) = [0; 5; 6]%Z /\ rmap elems (to_dense S) = Ok [3; 5; 6]%Z.
Proof.
  destruct (basic_create_view exA (zpat [None; Some 2]) false) as [S| |] eqn:E.
  2,3: apply (f_equal (rmap (fun _ => tt))) in E; vm_compute in E; discriminate.
  destruct (to_dense exA) as [D| |] eqn:ED.
  2,3: apply (f_equal (rmap (fun _ => tt))) in ED; vm_compute in ED; discriminate.
  exists exA, [None; Some 2], S. split; [apply exA_valid|]. split; [cbn; lia|]. split; [intros n [<-|[<-|[]]]; lia|]. split; [exact E|].
  assert (EC : rbind (basic_create_view exA (zpat [None; Some 2]) false) (@check_tensor _ _) = Ok false) by (vm_compute; reflexivity).
  rewrite E in EC. cbn [rbind] in EC. split.
  - intros HV. destruct (valid_make HV). unfold make in *. rewrite EC in *. discriminate.
  - exists D. split; [exact ED|]. split.
    + assert (H : rmap (fun D => elems (d_view [None; Some 2] D)) (to_dense exA) = Ok [0; 5; 6]%Z) by (vm_compute; reflexivity).
      rewrite ED in H. cbn [rmap rbind] in H. injection H. auto.
    + assert (H : rmap elems (rbind (basic_create_view exA (zpat [None; Some 2]) false) (@to_dense _ _)) = Ok [3; 5; 6]%Z) by (vm_compute; reflexivity).
      rewrite E in H. exact H.
Qed.
Print Assumptions C24_trailing_refuted.
Example C24_ex : valid exA /\ pat_ok (legs exA) [Some 2; None] /\ tail_single (legs exA) [Some 2; None] /\
  rmap elems (rbind (basic_create_view exA [2; -1]%Z false) (@to_dense _ _)) = Ok [0; 0; 6]%Z.
Proof.
  split; [apply exA_valid|]. split; [cbn; lia|]. split; [|vm_compute; reflexivity].
  intros i Hi H. exfalso. apply (H 1); [cbn in *; lia|reflexivity].
Qed.

(** C26. Full claim: the slice becomes the value, all else is unchanged. True when the last dimension is kept and, where the
    value has no block, the slice of the tensor was already zero; the entries written are exactly those of the stored blocks of
    the value. *)
Theorem C26_assign_partial : forall G R (T V : btensor G R) p, valid T -> valid V -> pat_ok (legs T) p ->
  (forall n, In n (b_sbd T) -> 0 < n) -> view_meta p T V -> last p None = None ->
  exists T', basic_index_put_ T (zpat p) V = Ok T' /\ valid T' /\ same_meta T T' /\
    (forall bp op, resolves (legs T) p bp op -> written bp op T V T') /\
    forall D DV, dense_form T D -> dense_form V DV ->
      (forall bp op k o, resolves (legs T) p bp op -> in_range (b_sbd V) k = true -> in_range (pick 0 (legs V) k) o = true ->
        ~ stored V k -> bentry T (fill bp k) (fill op o) = rz) ->
      dense_form T' (d_assign p D DV).
Proof. exact (@index_put_spec). Qed.
Print Assumptions C26_assign_partial.
(** A fixed dimension after the last kept one: the block index of the value is read past its end. *)
Theorem C26_trailing_refuted : forall G R (T V : btensor G R) p, valid T -> valid V -> pat_ok (legs T) p ->
  (forall n, In n (b_sbd T) -> 0 < n) -> view_meta p T V -> last p None <> None -> b_blocks V <> [] ->
  basic_index_put_ T (zpat p) V = UB.
Proof. exact (@index_put_ub). Qed.
Print Assumptions C26_trailing_refuted.
(** Assigning a value without blocks, that is zero, leaves the old entries. *)
Definition exRow0 : zt := zB (q 0) 1 [2] [2; 1] [q 0; q (-1)] [].
Theorem C26_zero_refuted : exists (T V : zt) p, valid T /\ valid V /\ pat_ok (legs T) p /\ view_meta p T V /\ last p None = None /\
  rmap elems (to_dense V) = Ok [0; 0; 0]%Z /\ rmap elems (rbind (basic_index_put_ T (zpat p) V) (@to_dense _ _)) = rmap elems (to_dense T) /\
  rmap elems (to_dense T) = Ok [3; 4; 0; 0; 0; 5; 0; 0; 6]%Z.
Proof.
  exists exA, exRow0, [Some 0; None]. split; [apply exA_valid|]. split; [ex_valid|]. split; [cbn; lia|]. split.
  - split; [reflexivity|]. split; [reflexivity|]. split; [reflexivity|]. intros bp op HR.
    destruct (resolves_unique _ _ _ _ HR) as [-> _]. split; [apply sig_eq; vm_compute; reflexivity|].
    intros [|[|[|x]] [|y k]] Hk; try discriminate; unfold allowed; split; intros [_ H]; split; try reflexivity;
      try (apply sig_eq; vm_compute; reflexivity); exfalso; apply (f_equal (@proj1_sig _ _)) in H; vm_compute in H; discriminate.
  - split; [reflexivity|]. split; [vm_compute; reflexivity|]. split; vm_compute; reflexivity.
Qed.
Print Assumptions C26_zero_refuted.
Definition exRow : zt := zB (q 0) 1 [2] [2; 1] [q 0; q (-1)] [([0], dl [2] [8; 9]%Z)].
Example C26_ex : valid exRow /\ last [Some 0; None : option nat] None = None /\
  rmap elems (rbind (basic_index_put_ exA [0; -1]%Z exRow) (@to_dense _ _)) = Ok [8; 9; 0; 0; 0; 5; 0; 0; 6]%Z.
Proof. split; [ex_valid|]. split; [reflexivity|vm_compute; reflexivity]. Qed.
Definition exCol : zt := zB (q 0) 1 [2] [1; 2] [q 0; q 1] [([0], dl [1] [8]%Z)].
Example C26_trailing_ex : valid exCol /\ rmap (fun _ => tt) (basic_index_put_ exA [-1; 0]%Z exCol) = UB.
Proof. split; [ex_valid|vm_compute; reflexivity]. Qed.

(** C54. Full claim: squeeze removes exactly the dimensions of size one (one section of size one). [squeeze_(dim)]: for every
    tensor without dimensions that have no section. *)
Theorem C54_squeeze_dim : forall G R (T : btensor G R) d, valid T -> d < b_rank T -> (forall n, In n (b_sbd T) -> 0 < n) ->
  (nth d (legs T) [] <> [1] -> squeeze_dim T d = Ok T) /\
  (nth d (legs T) [] = [1] -> exists S, squeeze_dim T d = Ok S /\ valid S /\ view_meta (single d (b_rank T)) T S /\
    forall D, dense_form T D -> dense_form S (d_view (single d (b_rank T)) D)).
Proof. exact (@squeeze_dim_spec). Qed.
Print Assumptions C54_squeeze_dim.
(** [squeeze_()] does so when the quantities of the removed dimensions multiply to the neutral one; otherwise it throws. *)
Theorem C54_squeeze_all_partial : forall G R (T : btensor G R) bp op, valid T -> (forall n, In n (b_sbd T) -> 0 < n) ->
  let p := unit_dims (legs T) in resolves (legs T) p bp op ->
  (qprod G (fixed (qe G) bp (qlegs T)) = qe G -> exists S, squeeze_all T = Ok S /\ valid S /\ view_meta p T S /\
    forall D, dense_form T D -> dense_form S (d_view p D)) /\
  (qprod G (fixed (qe G) bp (qlegs T)) <> qe G -> squeeze_all T = Throw InvalidArgument).
Proof. exact (@squeeze_all_spec). Qed.
Print Assumptions C54_squeeze_all_partial.
Definition exUnit (z : z_group) : zt := zB z 2 [1; 2] [1; 1; 2] [z; q 0; q 1] [([0; 0], dl [1; 1] [7]%Z)].
Theorem C54_charged_refuted : exists T : zt, valid T /\ nth 0 (legs T) [] = [1] /\ squeeze_all T = Throw InvalidArgument.
Proof.
  exists (exUnit (q 1)). split; [ex_valid|]. split; [reflexivity|].
  apply (@squeeze_all_spec _ _ (exUnit (q 1)) [Some 0; None] [Some 0; None]); [ex_valid|intros n [<-|[<-|[]]]; lia| |].
  - cbn. unfold located. cbn. repeat split; lia.
  - intros H. apply (f_equal (@proj1_sig _ _)) in H. vm_compute in H. discriminate.
Qed.
Print Assumptions C54_charged_refuted.
Example C54_ex : valid (exUnit (q 0)) /\ unit_dims (legs (exUnit (q 0))) = [Some 0; None] /\
  rmap elems (rbind (squeeze_all (exUnit (q 0))) (@to_dense _ _)) = Ok [7; 0; 0]%Z /\
  rmap elems (rbind (squeeze_dim (exUnit (q 1)) 0) (@to_dense _ _)) = Ok [7; 0; 0]%Z.
Proof. split; [ex_valid|]. split; [reflexivity|]. split; vm_compute; reflexivity. Qed.
