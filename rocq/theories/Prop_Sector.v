(** The sector of a chain (C68). *)
From Verif Require Import Base Quantity QuantityProofs Ring SpecIndex Dense BTensor SpecBTensor BTensorProofs BTensorEx SpecChain SpecSector SectorThms.

(** A chain of valid tensors that fit together has no amplitude for a configuration whose quantities do not balance the rules
    of the sites and the quantities of the bonds at the ends. *)
Theorem C68_sector : forall (G : abgroup) (R : ring) (l : list (btensor G R)) D x y s cs p p' a b,
  Forall (@valid G R) l -> Forall2 (@dense_form G R) l D -> mps_fit (@blegs G R) (@bdual G) l x y ->
  config_carries l s cs -> length (snd x) = length (fst x) -> carries x p a -> carries y p' b ->
  qop G (qprod G cs) b <> qop G a (qprod G (map (@b_rule G R) l)) -> amp D s p p' = rz.
Proof. exact sector_thm. Qed.
Print Assumptions C68_sector.

(** One particle on two sites, 2 |01> + 3 |10>: |00> is outside of the sector, |01> is not. *)
Definition exs1 : zt := zB (q 0) 3 [1; 2; 2] [1; 1; 1; 1; 1] [q 0; q 0; q 1; q 0; q (-1)] [([0; 0; 0], dl [1; 1; 1] [2]%Z); ([0; 1; 1], dl [1; 1; 1] [1]%Z)].
Definition exs2 : zt := zB (q 0) 3 [2; 2; 1] [1; 1; 1; 1; 1] [q 0; q 1; q 0; q 1; q (-1)] [([0; 1; 0], dl [1; 1; 1] [1]%Z); ([1; 0; 0], dl [1; 1; 1] [3]%Z)].
Lemma zleg_eq (k l : list nat * list z_group) : fst k = fst l -> map (fun x : z_group => proj1_sig x) (snd k) = map (fun x : z_group => proj1_sig x) (snd l) -> k = l.
Proof.
  destruct k as [s k], l as [s' l]. cbn. intros -> H. f_equal. revert l H. induction k as [|x k IH]; intros [|y l] H; try discriminate; [reflexivity|].
  cbn in H. injection H as H1 H2. f_equal; [apply sig_eq; exact H1|auto].
Qed.
Ltac legs_eq := cbv [blegs legs qlegs]; cbn [b_sbd b_ss b_cv unpack firstn skipn combine exs1 exs2];
  repeat (apply f_equal2; [apply zleg_eq; vm_compute; reflexivity|]); reflexivity.
Example C68_ex : Forall (@valid _ _) [exs1; exs2] /\
  mps_fit (@blegs _ _) (@bdual _) [exs1; exs2] ([1], [q 0]) ([1], [q (-1)]) /\
  config_carries [exs1; exs2] [0; 0] [q 0; q 0] /\ config_carries [exs1; exs2] [0; 1] [q 0; q 1] /\
  carries ([1], [q 0]) 0 (q 0) /\ carries ([1], [q (-1)]) 0 (q (-1)) /\
  qop z_group (qprod z_group [q 0; q 0]) (q (-1)) <> qop z_group (q 0) (qprod z_group (map (@b_rule _ _) [exs1; exs2])) /\
  rmap (fun D => amp D [0; 1] 0 0) (rmapM (@to_dense _ _) [exs1; exs2]) = Ok 2%Z.
Proof.
  split; [repeat (apply Forall_cons; [ex_valid|]); constructor|].
  split. { exists ([1; 1], [q 0; q 1]), ([1; 1], [q 0; q (-1)]). split; [legs_eq|]. exists ([1; 1], [q 0; q 1]), ([1], [q (-1)]). split; [legs_eq|]. reflexivity. }
  assert (L0 : located [1; 1] 0 0 0) by (repeat split; cbn; lia). assert (L1 : located [1; 1] 1 1 0) by (repeat split; cbn; lia).
  split. { split; [reflexivity|]. split; [reflexivity|]. intros [|[|[|i]]] A E; cbn in E; try discriminate; injection E as <-; exists 0, 0; (split; [exact L0|reflexivity]). }
  split. { split; [reflexivity|]. split; [reflexivity|]. intros [|[|[|i]]] A E; cbn in E; try discriminate; injection E as <-; [exists 0, 0; (split; [exact L0|reflexivity])|exists 1, 0; (split; [exact L1|reflexivity])]. }
  split; [exists 0, 0; split; [repeat split; cbn; lia|reflexivity]|]. split; [exists 0, 0; split; [repeat split; cbn; lia|reflexivity]|].
  split; [|vm_compute; reflexivity]. intros H. apply (f_equal (fun x : z_group => proj1_sig x)) in H. vm_compute in H. discriminate.
Qed.
