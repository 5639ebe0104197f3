(** Property theorems about the contraction of chains of tensors with given edge tensors (C46) and about the environments and
    the two-site effective Hamiltonian (C51), for dense and for block tensors. [imax] is the largest int64 value. *)
From Verif Require Import Base Quantity QuantityProofs Ring Index SpecIndex Dense BTensor SpecBTensor BTensorThms BTensorThms2 BTensorEx BTensorArith Tensordot SpecTensordot Chain SpecChain ChainInst ChainEnd.

Notation idk := (fun k : nat => k).
Notation dfit a x y := (mps_fit (@dsh _) idk a x y).
Notation dfitop h a b x y := (mpo_fit (@dsh _) idk h a b x y).
Notation bfit a x y := (mps_fit (@blegs _ _) (@bdual _) a x y).
Notation bfitop h a b x y := (mpo_fit (@blegs _ _) (@bdual _) h a b x y).

Notation dual k := (@bdual _ k).

(** C46, edges given. The default edges are in Prop_Edges.v. *)
Theorem C46_dense_obs : forall (R : ring) (a b h : list (dense R)) l e x o y x' o' y', dsh l = [x; o; y] -> dsh e = [x'; o'; y'] ->
  dfit a x x' -> dfit b y y' -> dfitop h a b o o' ->
  exists s, contract_obs t_tdot t_conj a b h l e = Ok s /\ dsh s = [] /\ dv s [] = expectation a b h l e.
Proof. exact d_contract_obs. Qed.
Print Assumptions C46_dense_obs.
Theorem C46_dense : forall (R : ring) (a b : list (dense R)) l e x y x' y', dsh l = [x; y] -> dsh e = [x'; y'] ->
  dfit a x x' -> dfit b y y' -> same_phys (@dsh _) a b ->
  exists s, contract t_tdot t_conj a b l e = Ok s /\ dsh s = [] /\ dv s [] = inner a b l e.
Proof. exact d_contract. Qed.
Print Assumptions C46_dense.
Theorem C46_block_obs : forall G R imax (a b h : list (btensor G R)) l e x o y x' o' y' Da Db Dh Dl De,
  Forall2 (stored imax) a Da -> Forall2 (stored imax) b Db -> Forall2 (stored imax) h Dh -> stored imax l Dl -> stored imax e De ->
  blegs l = [x; o; (dual y)] -> blegs e = [(dual x'); (dual o'); y'] -> bfit a x x' -> bfit b y y' -> bfitop h a b o o' ->
  exists s, contract_obs (tensordot imax) (@conj G R) a b h l e = Ok s /\ stored imax s (scalar (expectation Da Db Dh Dl De)).
Proof. exact b_contract_obs. Qed.
Print Assumptions C46_block_obs.
Theorem C46_block : forall G R imax (a b : list (btensor G R)) l e x y x' y' Da Db Dl De,
  Forall2 (stored imax) a Da -> Forall2 (stored imax) b Db -> stored imax l Dl -> stored imax e De ->
  blegs l = [x; (dual y)] -> blegs e = [(dual x'); y'] -> bfit a x x' -> bfit b y y' -> same_phys (@blegs _ _) a b ->
  exists s, contract (tensordot imax) (@conj G R) a b l e = Ok s /\ stored imax s (scalar (inner Da Db Dl De)).
Proof. exact b_contract. Qed.
Print Assumptions C46_block.

(** C51. Left and right environments; the effective Hamiltonian of two sites in the environments of the others. *)
Theorem C51_left_dense : forall (R : ring) (h a : list (dense R)) l x o x' o', dsh l = [x; o; x] -> dfit a x x' -> dfitop h a a o o' ->
  exists l', left_envs t_tdot t_conj h a l = Ok l' /\ dsh l' = [x'; o'; x'] /\
    forall i j k, in_range (dsh l') [i; j; k] = true -> dv l' [i; j; k] = left_part a h l i j k.
Proof. exact d_left_envs. Qed.
Print Assumptions C51_left_dense.
Theorem C51_right_dense : forall (R : ring) (h a : list (dense R)) r x o x' o', dsh r = [x'; o'; x'] -> dfit a x x' -> dfitop h a a o o' ->
  exists r', right_envs t_tdot t_conj h a r = Ok r' /\ dsh r' = [x; o; x] /\
    forall i j k, in_range (dsh r') [i; j; k] = true -> dv r' [i; j; k] = right_part a h r i j k.
Proof. exact d_right_envs. Qed.
Print Assumptions C51_right_dense.
Theorem C51_effective_dense : forall (R : ring) (pre post : list (dense R)) a a' b b' hpre hpost h h' l e x o x' o',
  length hpre = length pre -> dsh l = [x; o; x] -> dsh e = [x'; o'; x'] ->
  dfit (pre ++ [a; a'] ++ post) x x' -> dfit (pre ++ [b; b'] ++ post) x x' ->
  dfitop (hpre ++ [h; h'] ++ hpost) (pre ++ [a; a'] ++ post) (pre ++ [b; b'] ++ post) o o' ->
  exists v, (do L <- left_envs t_tdot t_conj hpre pre l ; do E <- right_envs t_tdot t_conj hpost post e ;
      do s <- merge t_tdot a a' ; do H <- two_sites_hamil t_tdot t_perm h h' ; do t <- merge t_tdot b b' ;
      do p <- hamil2site_times_state t_tdot s H L E ; t_tdot p (t_conj t) [0; 1; 2; 3] [0; 1; 2; 3]) = Ok v /\
    dsh v = [] /\ dv v [] = expectation (pre ++ [a; a'] ++ post) (pre ++ [b; b'] ++ post) (hpre ++ [h; h'] ++ hpost) l e.
Proof. exact d_heff. Qed.
Print Assumptions C51_effective_dense.
Theorem C51_left_block : forall G R imax (h a : list (btensor G R)) l x o x' o' Da Dh Dl,
  Forall2 (stored imax) a Da -> Forall2 (stored imax) h Dh -> stored imax l Dl ->
  blegs l = [x; o; (dual x)] -> bfit a x x' -> bfitop h a a o o' ->
  exists l', left_envs (tensordot imax) (@conj G R) h a l = Ok l' /\ blegs l' = [x'; o'; (dual x')] /\
    stored imax l' (mkD (map (@bsz G) (blegs l')) (fun i => left_part Da Dh Dl (nth 0 i 0) (nth 1 i 0) (nth 2 i 0))).
Proof. exact b_left_envs. Qed.
Print Assumptions C51_left_block.
Theorem C51_right_block : forall G R imax (h a : list (btensor G R)) r x o x' o' Da Dh Dr,
  Forall2 (stored imax) a Da -> Forall2 (stored imax) h Dh -> stored imax r Dr ->
  blegs r = [(dual x'); (dual o'); x'] -> bfit a x x' -> bfitop h a a o o' ->
  exists r', right_envs (tensordot imax) (@conj G R) h a r = Ok r' /\ blegs r' = [(dual x); (dual o); x] /\
    stored imax r' (mkD (map (@bsz G) (blegs r')) (fun i => right_part Da Dh Dr (nth 0 i 0) (nth 1 i 0) (nth 2 i 0))).
Proof. exact b_right_envs. Qed.
Print Assumptions C51_right_block.
Theorem C51_effective_block : forall G R imax (pre post : list (btensor G R)) a a' b b' hpre hpost h h' l e x o x' o'
    Dpre Dpost Dab Dbb Dhpre Dhpost Dhh Dl De,
  Forall2 (stored imax) pre Dpre -> Forall2 (stored imax) post Dpost -> Forall2 (stored imax) [a; a'] Dab -> Forall2 (stored imax) [b; b'] Dbb ->
  Forall2 (stored imax) hpre Dhpre -> Forall2 (stored imax) hpost Dhpost -> Forall2 (stored imax) [h; h'] Dhh -> stored imax l Dl -> stored imax e De ->
  length hpre = length pre -> blegs l = [x; o; (dual x)] -> blegs e = [(dual x'); (dual o'); x'] ->
  bfit (pre ++ [a; a'] ++ post) x x' -> bfit (pre ++ [b; b'] ++ post) x x' ->
  bfitop (hpre ++ [h; h'] ++ hpost) (pre ++ [a; a'] ++ post) (pre ++ [b; b'] ++ post) o o' ->
  exists v, (do L <- left_envs (tensordot imax) (@conj G R) hpre pre l ; do E <- right_envs (tensordot imax) (@conj G R) hpost post e ;
      do s <- merge (tensordot imax) a a' ; do H <- two_sites_hamil (tensordot imax) b_perm h h' ; do t <- merge (tensordot imax) b b' ;
      do p <- hamil2site_times_state (tensordot imax) s H L E ; tensordot imax p (conj t) [0; 1; 2; 3] [0; 1; 2; 3]) = Ok v /\
    stored imax v (scalar (expectation (Dpre ++ Dab ++ Dpost) (Dpre ++ Dbb ++ Dpost) (Dhpre ++ Dhh ++ Dhpost) Dl De)).
Proof. exact b_heff. Qed.
Print Assumptions C51_effective_block.

(** The two-site Hamiltonians of a whole chain. *)
Theorem C51_pairs_dense : forall (R : ring) (h : dense R) l x y, op_chain (@dsh _) idk (h :: l) x y ->
  exists r, compute_2sites_hamil t_tdot t_perm (h :: l) = Ok r /\ length r = length l /\
    forall i t A B, nth_error r i = Some t -> nth_error (h :: l) i = Some A -> nth_error (h :: l) (S i) = Some B -> deq t (two_site A B).
Proof. exact d_two_sites. Qed.
Print Assumptions C51_pairs_dense.
Theorem C51_pairs_block : forall G R imax (h : btensor G R) l x y Dh Dl, stored imax h Dh -> Forall2 (stored imax) l Dl -> op_chain (@blegs _ _) (@bdual _) (h :: l) x y ->
  exists r, compute_2sites_hamil (tensordot imax) b_perm (h :: l) = Ok r /\ length r = length l /\
    forall i t A B D0 D1, nth_error r i = Some t -> nth_error (h :: l) i = Some A -> nth_error (h :: l) (S i) = Some B ->
      nth_error (Dh :: Dl) i = Some D0 -> nth_error (Dh :: Dl) (S i) = Some D1 ->
      stored imax t (two_site D0 D1) /\
      let leg k T := nth k (blegs T) ([], []) in blegs t = [leg 0 A; leg 1 A; leg 1 B; leg 2 B; leg 3 A; leg 3 B].
Proof. exact b_two_sites. Qed.
Print Assumptions C51_pairs_block.

(** Two sites of complex numbers, a bond of size two, and a different second state. *)
Definition cl (sh : list nat) (l : list (Z * Z)) : dense ring_Zi := @mkD ring_Zi sh (fun i => nth (rowmajor sh i) l (0, 0)%Z).
Definition exa1 := cl [1; 2; 2] [(1, 0); (0, 1); (2, 0); (0, 0)]%Z.
Definition exa2 := cl [2; 2; 1] [(1, 0); (1, 1); (0, 2); (3, 0)]%Z.
Definition exb1 := cl [1; 2; 1] [(1, 0); (0, 1)]%Z.
Definition exb2 := cl [1; 2; 1] [(1, 1); (0, 2)]%Z.
(** Operators with a bond of size two: Z (x) 1 - 1 (x) Y. *)
Definition exh1 := cl [1; 2; 2; 2] [(1, 0); (0, 0); (1, 0); (0, 0); (0, 0); (-1, 0); (0, 0); (1, 0)]%Z.
Definition exh2 := cl [2; 2; 1; 2] [(1, 0); (0, 0); (0, 0); (1, 0); (0, 0); (0, 1); (0, -1); (0, 0)]%Z.
Definition exone (k : nat) := cl (repeat 1 k) [(1, 0)]%Z.
Ltac fits := repeat (cbn; first [reflexivity | exact I | eexists | split]).
Example C46_ex : dfit [exa1; exa2] 1 1 /\ dfit [exb1; exb2] 1 1 /\ dfitop [exh1; exh2] [exa1; exa2] [exb1; exb2] 1 1 /\
  same_phys (@dsh _) [exa1; exa2] [exb1; exb2] /\
  rmap (fun s : dense ring_Zi => dv s []) (contract_obs t_tdot t_conj [exa1; exa2] [exb1; exb2] [exh1; exh2] (exone 3) (exone 3)) = Ok (16, 14)%Z /\
  rmap (fun s : dense ring_Zi => dv s []) (contract t_tdot t_conj [exa1; exa2] [exb1; exb2] (exone 2) (exone 2)) = Ok (1, -7)%Z.
Proof. split; [fits|]. split; [fits|]. split; [fits|]. split; [fits|]. split; vm_compute; reflexivity. Qed.
(** Block tensors: the state 2 |01> + 3 |10> of one particle, and a product of diagonal operators. *)
Lemma zleg_eq (k l : list nat * list z_group) : fst k = fst l -> map (fun x : z_group => proj1_sig x) (snd k) = map (fun x : z_group => proj1_sig x) (snd l) -> k = l.
Proof.
  destruct k as [s k], l as [s' l]. cbn. intros -> H. f_equal. revert l H. induction k as [|x k IH]; intros [|y l] H; try discriminate; [reflexivity|].
  cbn in H. injection H as H1 H2. f_equal; [apply sig_eq; exact H1|auto].
Qed.
Lemma stored_ex imax (T : zt) : valid T -> forallb (fun s => s <=? imax) (b_sbd T) = true -> exists D, stored imax T D.
Proof.
  intros V H. destruct (@to_dense_total _ _ T V) as (D & _ & HD & _). exists D. split; [exact V|]. split; [exact HD|]. rewrite forallb_forall in H. intros s Hs. apply Nat.leb_le, H, Hs.
Qed.
Definition exs1 : zt := zB (q 0) 3 [1; 2; 2] [1; 1; 1; 1; 1] [q 0; q 0; q 1; q 0; q (-1)] [([0; 0; 0], dl [1; 1; 1] [2]%Z); ([0; 1; 1], dl [1; 1; 1] [1]%Z)].
Definition exs2 : zt := zB (q 0) 3 [2; 2; 1] [1; 1; 1; 1; 1] [q 0; q 1; q 0; q 1; q (-1)] [([0; 1; 0], dl [1; 1; 1] [1]%Z); ([1; 0; 0], dl [1; 1; 1] [3]%Z)].
Definition exo (a b : Z) : zt := zB (q 0) 4 [1; 2; 1; 2] [1; 1; 1; 1; 1; 1] [q 0; q 0; q 1; q 0; q 0; q (-1)] [([0; 0; 0; 0], dl [1; 1; 1; 1] [a]); ([0; 1; 0; 1], dl [1; 1; 1; 1] [b])].
Definition exl : zt := zB (q 0) 3 [1; 1; 1] [1; 1; 1] [q 0; q 0; q 0] [([0; 0; 0], dl [1; 1; 1] [1]%Z)].
Definition exr : zt := zB (q 0) 3 [1; 1; 1] [1; 1; 1] [q 1; q 0; q (-1)] [([0; 0; 0], dl [1; 1; 1] [1]%Z)].
Ltac legs_eq := cbv [blegs legs qlegs]; cbn [b_sbd b_ss b_cv unpack firstn skipn combine exs1 exs2 exo exl exr];
  repeat (apply f_equal2; [apply zleg_eq; vm_compute; reflexivity|]); reflexivity.
Example C46_block_ex : (exists Da, Forall2 (stored 10) [exs1; exs2] Da) /\ (exists Dh, Forall2 (stored 10) [exo 1 (-1); exo 2 3] Dh) /\
  (exists Dl, stored 10 exl Dl) /\ (exists Dr, stored 10 exr Dr) /\
  exists x o x' o', blegs exl = [x; o; dual x] /\ blegs exr = [dual x'; dual o'; x'] /\ bfit [exs1; exs2] x x' /\ bfitop [exo 1 (-1); exo 2 3] [exs1; exs2] [exs1; exs2] o o' /\
  rmap elems (rbind (contract_obs (tensordot 10) (@conj _ _) [exs1; exs2] [exs1; exs2] [exo 1 (-1); exo 2 3] exl exr) (@to_dense _ _)) = Ok [-6]%Z.
Proof.
  assert (H : forall l : list zt, (forall T, In T l -> valid T /\ forallb (fun s => s <=? 10) (b_sbd T) = true) -> exists D, Forall2 (stored 10) l D).
  { induction l as [|T l IH]; intros H; [exists []; constructor|]. destruct (IH (fun T HT => H T (or_intror HT))) as [Ds HDs].
    destruct (H T (or_introl eq_refl)) as [V B]. destruct (stored_ex 10 T V B) as [D HD]. exists (D :: Ds). constructor; assumption. }
  split; [apply H; intros T [<-|[<-|[]]]; (split; [ex_valid|reflexivity])|].
  split; [apply H; intros T [<-|[<-|[]]]; (split; [ex_valid|reflexivity])|].
  split; [apply stored_ex; [ex_valid|reflexivity]|]. split; [apply stored_ex; [ex_valid|reflexivity]|].
  exists ([1], [q 0]), ([1], [q 0]), ([1], [q (-1)]), ([1], [q 0]).
  split; [legs_eq|]. split; [legs_eq|].
  split. { exists ([1; 1], [q 0; q 1]), ([1; 1], [q 0; q (-1)]). split; [legs_eq|]. exists ([1; 1], [q 0; q 1]), ([1], [q (-1)]). split; [legs_eq|]. reflexivity. }
  split. { exists ([1], [q 0]), ([1; 1], [q 0; q 1]), ([1; 1], [q 0; q 1]). split; [legs_eq|]. split; [reflexivity|]. split; [reflexivity|].
    exists ([1], [q 0]), ([1; 1], [q 0; q 1]), ([1; 1], [q 0; q 1]). split; [legs_eq|]. split; [reflexivity|]. split; reflexivity. }
  vm_compute. reflexivity.
Qed.
Example C51_ex : 
  dfit [exa1; exa2] 1 1 /\ dfitop [exh1; exh2] [exa1; exa2] [exa1; exa2] 1 1 /\
  rmap (fun s : dense ring_Zi => map (dv s) (idxs (dsh s))) (left_envs t_tdot t_conj [exh1] [exa1] (exone 3)) = Ok [(-3, 0); (0, -1); (5, 0); (0, -1); (0, 1); (1, 0); (0, 1); (1, 0)]%Z /\
  rmap (fun s : dense ring_Zi => map (dv s) (idxs (dsh s))) (right_envs t_tdot t_conj [exh2] [exa2] (exone 3)) = Ok [(3, 0); (3, 1); (-2, 0); (2, -1); (3, -1); (13, 0); (2, 1); (12, 0)]%Z.
Proof. split; [fits|]. split; [fits|]. split; vm_compute; reflexivity. Qed.
(** The same chain for the block tensors, with the two sites in the environments of the empty chains. *)
Example C51_block_ex : rmap elems (rbind (
    do L <- left_envs (tensordot 10) (@conj z_group ring_Z) [] [] exl ; do E <- right_envs (tensordot 10) (@conj _ _) [] [] exr ;
      do s <- merge (tensordot 10) exs1 exs2 ; do H <- two_sites_hamil (tensordot 10) b_perm (exo 1 (-1)) (exo 2 3) ; do t <- merge (tensordot 10) exs1 exs2 ;
      do p <- hamil2site_times_state (tensordot 10) s H L E ; tensordot 10 p (conj t) [0; 1; 2; 3] [0; 1; 2; 3]) (@to_dense _ _)) = Ok [-6]%Z.
Proof. vm_compute. reflexivity. Qed.
(** The chain Z (x) 1 - 1 (x) Y followed by a third site. *)
Definition exh3 := cl [1; 2; 1; 2] [(2, 0); (0, 0); (0, 0); (3, 0)]%Z.
Example C51_pairs_ex : op_chain (@dsh _) idk [exh1; exh2; exh3] 1 1 /\
  rmap (map (fun s : dense ring_Zi => map (dv s) [[0; 0; 0; 0; 0; 0]; [0; 0; 0; 0; 0; 1]; [0; 1; 0; 0; 1; 0]])) (compute_2sites_hamil t_tdot t_perm [exh1; exh2; exh3]) =
    Ok [[(1, 0); (0, 1); (-1, 0)]; [(2, 0); (0, 0); (2, 0)]]%Z.
Proof. split; [fits|]. vm_compute. reflexivity. Qed.
Example C51_pairs_block_ex : op_chain (@blegs _ _) (@bdual _) [exo 1 (-1); exo 2 3; exo 0 1] ([1], [q 0]) ([1], [q 0]) /\
  rmap (map (fun t : zt => length (b_blocks t))) (compute_2sites_hamil (tensordot 10) b_perm [exo 1 (-1); exo 2 3; exo 0 1]) = Ok [4; 4].
Proof.
  split; [|vm_compute; reflexivity]. do 2 (exists ([1; 1], [q 0; q 1]), ([1], [q 0]), ([1; 1], [q 0; q (-1)]); split; [legs_eq|]).
  exists ([1; 1], [q 0; q 1]), ([1], [q 0]), ([1; 1], [q 0; q (-1)]). split; [legs_eq|]. reflexivity.
Qed.
