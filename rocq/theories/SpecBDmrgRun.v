(** What is asked of the pairs of sites that a run of DMRG on block tensors goes through. *)
From Verif Require Import Base Quantity QuantityProofs Ring SpecIndex Dense BTensor SpecBTensor Tensordot Chain SpecChain SpecBTrunc BSvd Num Lanczos BLanczos Edges SpecEdges Truncate Dmrg DmrgRun BDmrgRun SpecMove SpecSector SpecSvd SpecLanczos SpecBLanczos.
Set Implicit Arguments.

Section S.
  Context {G : abgroup} {N : numeric}.
  Notation bt := (btensor G N).
  Notation leg := (list nat * list G)%type.
  (** The sites and operators at positions [p] and [p + 1] and those on both sides of them. *)
  Definition pair_at {T} (p : nat) (sites hs : list T) pre a a' post hpre h h' hpost : Prop :=
    sites = pre ++ [a; a'] ++ post /\ hs = hpre ++ [h; h'] ++ hpost /\ length pre = p /\ length hpre = p.
  (** A block tensor that meets its invariant, with at most [imax] sections in a dimension. *)
  Definition well (imax : nat) (T : bt) : Prop := valid T /\ forall n, In n (b_sbd T) -> n <= imax.
  Definition not_zero (T : bt) : Prop := exists e j, In e (b_blocks T) /\ in_range (dsh (snd e)) j = true /\ dv (snd e) j <> rz.
  (** All sections of a dimension carry the quantity [c]. *)
  Definition carries_only (k : leg) (c : G) : Prop := Forall (fun x => x = c) (snd k).

  (** The pair [U] that the update of the sites at [p] gives: *)
  Definition updated_pair (imax : nat) (eps : N) (hs : list bt) (l e : bt) (sites : list bt) (p : nat) (U : bt) : Prop :=
    exists pre a a' post hpre h h' hpost Le Re He s Et, pair_at p sites hs pre a a' post hpre h h' hpost /\
      left_envs (tensordot imax) (@conj G N) hpre pre l = Ok Le /\ right_envs (tensordot imax) (@conj G N) hpost post e = Ok Re /\ two_sites_hamil (tensordot imax) b_perm h h' = Ok He /\
      merge (tensordot imax) a a' = Ok s /\ b_update imax eps s He Le Re = Ok (Et, U).
  (** its sizes are within the types of the code, it is not zero, and truncating its decomposition keeps the invariant (see C64). *)
  Definition cut_fine (imax : nat) (eps : N) (gtb : N -> N -> bool) (dsvd : dense N -> dense N * dense N * dense N) (hs : list bt) (l e : bt) (sites : list bt) (p : nat) : Prop :=
    forall U x y y' x', updated_pair imax eps hs l e sites p U -> well imax U -> blegs U = [x; y; y'; x'] ->
      length (fst x) * length (fst y) <= imax /\ (Z.of_nat (bsz G y' * bsz G x') <= 2 ^ 63)%Z /\ not_zero U /\
      forall u v w z, svd_split dsvd U 2 = Ok (u, v, w) -> tidy gtb v z u /\ tidy gtb v z w.
  (** What C83 asks of the pair at [p], when no more than [mx] singular values can be kept: sizes within the types of the code and [mx]; stored blocks that include those
      that the operators reach; for the normalized pair that the update gives a decomposition that is right, truncation that keeps the invariant, and no sector of zeros. *)
  Definition step_fine (imax : nat) (eps : N) (gtb : N -> N -> bool) (dsvd : dense N -> dense N * dense N * dense N) (mx : Z) (hs : list bt) (l e : bt) (sites : list bt) (p : nat) : Prop :=
    forall pre a a' post hpre h h' hpost Le Re He s x y k y' x', pair_at p sites hs pre a a' post hpre h h' hpost ->
      left_envs (tensordot imax) (@conj G N) hpre pre l = Ok Le -> right_envs (tensordot imax) (@conj G N) hpost post e = Ok Re -> two_sites_hamil (tensordot imax) b_perm h h' = Ok He ->
      merge (tensordot imax) a a' = Ok s -> blegs a = [bdual G x; y; k] -> blegs a' = [bdual G k; y'; x'] ->
      (length (fst x) * length (fst y) <= imax /\ (Z.of_nat (bsz G y' * bsz G x') <= 2 ^ 63)%Z /\ (Z.of_nat (bsz G y' * bsz G x') <= mx)%Z) /\
      (forall P, hamil2site_times_state (tensordot imax) s He Le Re = Ok P -> reached P s) /\
      forall Et U DU, b_update imax eps s He Le Re = Ok (Et, U) -> stored imax U DU -> blegs U = [bdual G x; y; y'; x'] ->
        (forall M, sector_matrix 2 U DU M -> isometries M (dsvd M)) /\
        (sprod [bsz G x; bsz G y; bsz G y'; bsz G x'] (dv DU) (dv DU) = ro ->
          (forall u v w z, svd_split dsvd U 2 = Ok (u, v, w) -> tidy gtb v z u /\ tidy gtb v z w) /\
          forall z, In z (b_blocks U) -> exists z' j, In z' (b_blocks U) /\ block_quantity 2 U (fst z') = block_quantity 2 U (fst z) /\ in_range (dsh (snd z')) j = true /\ dv (snd z') j <> rz).
  (** Where the centre of the chain is at the end of a run on [L] sites that starts with centre [oc]. *)
  Definition b_final_centre (L oc : nat) : nat :=
    let p := start_pos L oc in if p =? 0 then (if L - 1 =? 1 then 0 else 1) else if p =? L - 2 then p else p + 1.
  (** The edges of the environments of a run. *)
  Definition run_edges (last_first : bool) (hs sites : list bt) (l e : bt) : Prop :=
    exists a h a' h', front sites = Ok a /\ front hs = Ok h /\ Edges.back sites = Ok a' /\ Edges.back hs = Ok h' /\ b_env_edge last_first a h 0 0 = Ok l /\ b_env_edge last_first a' h' 2 2 = Ok e.
  (** The states after any number of updates of a run that starts with [sites] and centre [oc], with that number and the energies of the updates. *)
  Definition b_reached {W : weights} (last_first : bool) (imax : nat) (eps : N) gtb lower (wt : N -> W) dsvd thr mn mx (undef : bt) (hs sites : list bt) (oc : nat) (k : nat) (s : dst bt bt) (Es : list bt) : Prop :=
    exists env hs2 step, b_generate_env last_first imax undef hs sites oc = Ok env /\ compute_2sites_hamil (tensordot imax) b_perm hs = Ok hs2 /\
      b_updates imax eps gtb lower wt dsvd thr mn mx hs hs2 k (mkDst sites env (Z.of_nat (start_pos (length sites) oc))) (start_step (length sites) oc) (Z.of_nat (length sites) - 2) = Some (Ok (s, step, Es)).
  (** A number of the run: a valid tensor without dimensions and with the neutral rule. *)
  Definition neutral_scalar (imax : nat) (E : bt) : Prop := well imax E /\ blegs E = [] /\ b_rule E = qe G.
End S.
