(** What is asked of, and said about, the chains that a run of DMRG goes through. *)
From Verif Require Import Base Ring SpecIndex Dense BTensor Tensordot Chain SpecChain SpecMove SpecSvd Num Truncate Lanczos SpecLanczos SpecSiteUpdate Dmrg DmrgRun.
Set Implicit Arguments.

Section S.
  Context {N : numeric}.
  Notation t := (dense N).
  (** The sites and operators at positions [p] and [p + 1] and those on both sides of them. *)
  Definition at_pair (p : nat) (sites hs : list t) pre a a' post hpre h h' hpost : Prop :=
    sites = pre ++ [a; a'] ++ post /\ hs = hpre ++ [h; h'] ++ hpost /\ length pre = p /\ length hpre = p.
  (** The pair at [p] has a residual of norm [eps] at least, or is an eigenvector with a negative eigenvalue. *)
  Definition improvable_at (eps : N) (hs : list t) (l e : t) (sites : list t) (p : nat) : Prop :=
    forall pre a a' post hpre h h' hpost, at_pair p sites hs pre a a' post hpre h h' hpost ->
      improvable [size 0 a; size 1 a; size 1 a'; size 2 a'] (local_matrix pre hpre h h' post hpost l e) eps (pair_amp a a').
  (** The largest size of the bond between positions [p] and [p + 1]. *)
  Definition bond_max (sites : list t) (p : nat) (k : nat) : Prop :=
    exists pre a a' post, sites = pre ++ [a; a'] ++ post /\ length pre = p /\ k = Nat.min (size 0 a * size 1 a) (size 1 a' * size 2 a').
  Definition bond_size (sites : list t) (p : nat) (k : nat) : Prop := exists A, nth_error sites p = Some A /\ size 2 A = k.
  Definition full_bond (sites : list t) (p : nat) : Prop := forall k, bond_max sites p k -> bond_size sites p k.
  (** Canonical form with centre [c]. *)
  Definition canonical (sites : list t) (c : nat) : Prop := centred 0 (length sites) c sites.
  (** The decomposition [dsvd] is right, that is has isometries, for the vector that the update of the pair at [p] gives. *)
  Definition svd_right (dsvd : t -> t * t * t) (eps : N) (hs : list t) (l e : t) (sites : list t) (p : nat) : Prop :=
    forall pre a a' post hpre h h' hpost Le Re He s E U M, at_pair p sites hs pre a a' post hpre h h' hpost ->
      left_envs t_tdot t_conj hpre pre l = Ok Le -> right_envs t_tdot t_conj hpost post e = Ok Re -> two_sites_hamil t_tdot t_perm h h' = Ok He ->
      merge t_tdot a a' = Ok s -> t_update eps s He Le Re = Ok (E, U) -> cut_matrix 2 U M -> isometries M (dsvd M).
  (** Where the centre of the chain is at the end of a run on [L] sites that starts with centre [oc]: on the right of the site reported, except at the ends (see C43). *)
  Definition final_centre (L oc : nat) : nat :=
    let p := start_pos L oc in if (p =? 0) || (p =? L - 2) then p else p + 1.
  (** The energy of a chain, and a list of energies each not above the one before. *)
  Definition chain_energy (hs : list t) (l e : t) (sites : list t) : N := expectation sites sites hs l e.
  Fixpoint falling (E : N) (l : list t) : Prop := match l with [] => True | E' :: l => le N (dv E' []) E /\ falling (dv E' []) l end.

  (** The states after any number of updates of a run that starts with [sites] and centre [oc], with that number. *)
  Definition reached {W : weights} (slack : nat) (eps : N) dsvd (wt : N -> W) thr mn mx (undef : t) (hs sites : list t) (oc : nat) (k : nat) (s : dst t t) (Es : list t) : Prop :=
    exists env hs2 step, t_generate_env slack undef hs sites oc = Ok env /\ compute_2sites_hamil t_tdot t_perm hs = Ok hs2 /\
      t_updates eps dsvd wt thr mn mx hs hs2 k (mkDst sites env (Z.of_nat (start_pos (length sites) oc))) (start_step (length sites) oc) (Z.of_nat (length sites) - 2) = Some (Ok (s, step, Es)).
End S.
