(** Property theorems about chains contracted without giving the edges (C46), the shapes of torch tensors with some dimensions
    dropped (C63), the shapes of products of block tensors (C64) and the edges of ones (C65). [imax] is the largest int64
    value; [slack] is the number of entries after the end of a vector that may be overwritten without consequence: none in
    the language. *)
From Verif Require Import Base Quantity QuantityProofs Ring Index SpecIndex Dense BTensor SpecBTensor BTensorThms BTensorThms2 BTensorEx BTensorArith Tensordot SpecTensordot View SpecView
  Chain SpecChain ChainInst ChainEnd Prop_Chain Edges SpecEdges EdgesProofs EdgesBlock.

Notation lpat := [None; Some 0; Some 0].
Notation rpat := [Some 0; Some 0; None].

(** C46, dense tensors. *)
Theorem C46_dense_default_refuted : forall (R : ring) (a b : list (dense R)), d_contract_default 0 a b = UB.
Proof. exact d_default_ub. Qed.
Print Assumptions C46_dense_default_refuted.
Theorem C46_dense_obs_default_refuted : forall (R : ring) (a b h : list (dense R)), d_contract_obs_default 0 a b h = UB.
Proof. exact d_obs_default_ub. Qed.
Print Assumptions C46_dense_obs_default_refuted.
(** Missing: only where one entry after the end of the vector may be written. *)
Theorem C46_dense_default_partial : forall (R : ring) slack, 0 < slack -> forall (a b : list (dense R)) x y x' y', a <> [] ->
  dfit a x x' -> dfit b y y' -> same_phys (@dsh R) a b ->
  exists s, d_contract_default slack a b = Ok s /\ dsh s = [] /\ dv s [] = closed_overlap a b (Nat.min x y) (Nat.min x' y').
Proof. exact d_default. Qed.
Print Assumptions C46_dense_default_partial.
Theorem C46_dense_obs_default_partial : forall (R : ring) slack, 0 < slack -> forall (a b h : list (dense R)) x o y x' o' y', a <> [] ->
  dfit a x x' -> dfit b y y' -> dfitop h a b o o' ->
  exists s, d_contract_obs_default slack a b h = Ok s /\ dsh s = [] /\ dv s [] = closed_element a b h (Nat.min x y) o (Nat.min x' y') o'.
Proof. exact d_obs_default. Qed.
Print Assumptions C46_dense_obs_default_partial.
(** Block tensors. Missing: ends with different sections; the value is wrong when the rules left at the ends differ. *)
Theorem C46_block_default_partial : forall G R imax (a b : list (btensor G R)) x x' Da Db A0 B0 A1 B1 r s r' s',
  Forall2 (stored imax) a Da -> Forall2 (stored imax) b Db -> Forall nonempty a -> Forall nonempty b ->
  bfit a x x' -> bfit b x x' -> same_phys (@blegs _ _) a b ->
  front a = Ok A0 -> front b = Ok B0 -> back a = Ok A1 -> back b = Ok B1 ->
  edge_rule lpat A0 r -> edge_rule lpat B0 s -> edge_rule rpat A1 r' -> edge_rule rpat B1 s' ->
  exists t, b_contract_default imax a b = Ok t /\
    stored imax t (scalar (if qeqb G r s && qeqb G r' s' then closed_overlap Da Db (@bsz G x) (@bsz G x') else rz)).
Proof. exact b_default. Qed.
Print Assumptions C46_block_default_partial.
Theorem C46_block_obs_default_partial : forall G R imax last_first (a b h : list (btensor G R)) x x' o o' Da Db Dh A0 B0 A1 B1 H0 H1 r s r' s' c c',
  Forall2 (stored imax) a Da -> Forall2 (stored imax) b Db -> Forall2 (stored imax) h Dh ->
  Forall nonempty a -> Forall nonempty b -> Forall nonempty h ->
  bfit a x x' -> bfit b x x' -> bfitop h a b o o' ->
  front a = Ok A0 -> front b = Ok B0 -> back a = Ok A1 -> back b = Ok B1 -> front h = Ok H0 -> back h = Ok H1 ->
  edge_rule lpat A0 r -> edge_rule lpat B0 s -> edge_rule rpat A1 r' -> edge_rule rpat B1 s' ->
  Forall (fun u => u = c) (snd o) -> Forall (fun u => u = c') (snd o') ->
  exists t, b_contract_obs_default imax last_first a b h = Ok t /\
    stored imax t (scalar (if (qeqb G r s && order_ok last_first c) && (qeqb G r' s' && order_ok last_first c')
      then closed_element Da Db Dh (@bsz G x) (@bsz G o) (@bsz G x') (@bsz G o') else rz)).
Proof. exact b_obs_default. Qed.
Print Assumptions C46_block_obs_default_partial.

(** C63. *)
Theorem C63_shape_from : forall sh p, length sh = length p -> ~ tail_fixed p -> ts_shape_from 0 sh (zpat p) = Ok (keep p sh).
Proof. exact (fun sh p L H => @ts_ok 0 sh p L (or_intror H)). Qed.
Print Assumptions C63_shape_from.
Theorem C63_shape_from_refuted : forall sh p, length sh = length p -> tail_fixed p -> ts_shape_from 0 sh (zpat p) = UB.
Proof. exact ts_ub. Qed.
Print Assumptions C63_shape_from_refuted.
Theorem C63_slack : forall slack sh p, length sh = length p -> 0 < slack -> ts_shape_from slack sh (zpat p) = Ok (keep p sh).
Proof. exact (fun slack sh p L H => @ts_ok slack sh p L (or_introl H)). Qed.
Print Assumptions C63_slack.

(** C64. *)
Theorem C64_product : forall G R (T1 T2 : btensor G R), meta_ok T1 -> meta_ok T2 -> exists S, tensor_product_shape T1 T2 = Ok S /\
  shape_is S (legs T1 ++ legs T2) (qlegs T1 ++ qlegs T2) (qop G (b_rule T1) (b_rule T2)).
Proof. exact product_shape_ok. Qed.
Print Assumptions C64_product.
Theorem C64_list : forall G R (l : list (btensor G R)), l <> [] -> Forall (@meta_ok G R) l -> exists S, shape_from_list l = Ok S /\
  shape_is S (concat (map (@legs G R) l)) (concat (map (@qlegs G R) l)) (qprod G (map (@b_rule G R) l)).
Proof. exact shape_list_ok. Qed.
Print Assumptions C64_list.

(** C65. *)
Theorem C65_edge_partial : forall G R imax last_first (A : btensor G R) d k c, valid A -> nonempty A -> d < length (blegs A) -> nth d (blegs A) ([], []) = k ->
  Forall (fun x => x = c) (snd k) -> length (fst k) <= imax ->
  exists S E, edge_shape_prep last_first A d = Ok S /\ full_like S ro = Ok E /\ blegs E = [dual k] /\ stored imax E (d_when (order_ok last_first c) (d_full [@bsz G k] ro)).
Proof. exact edge_ones_ok. Qed.
Print Assumptions C65_edge_partial.
Theorem C65_env_edge_partial : forall G R imax last_first (A H : btensor G R) ds dh k kh c ch,
  valid A -> nonempty A -> ds < length (blegs A) -> nth ds (blegs A) ([], []) = k -> Forall (fun x => x = c) (snd k) -> length (fst k) <= imax ->
  valid H -> nonempty H -> dh < length (blegs H) -> nth dh (blegs H) ([], []) = kh -> Forall (fun x => x = ch) (snd kh) -> length (fst kh) <= imax ->
  exists E, b_env_edge last_first A H ds dh = Ok E /\ blegs E = [dual k; dual kh; k] /\
    stored imax E (d_when (order_ok last_first ch) (d_full [@bsz G k; @bsz G kh; @bsz G k] ro)).
Proof. exact env_edge_ok. Qed.
Print Assumptions C65_env_edge_partial.
Theorem C65_dense_env_edge_refuted : forall (R : ring) (A H : dense R) dh, length (dsh A) = 3 -> d_env_edge 0 A H 0 dh = UB.
Proof. exact d_env_edge_ub. Qed.
Print Assumptions C65_dense_env_edge_refuted.
