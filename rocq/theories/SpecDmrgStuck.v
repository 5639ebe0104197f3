(** The states of a run of DMRG that the next update cannot get through. *)
From Verif Require Import Base Ring SpecIndex Dense BTensor Tensordot Chain SpecChain SpecMove SpecSvd Num Truncate Lanczos SpecLanczos SpecSiteUpdate Dmrg DmrgRun SpecDmrgRun.
Set Implicit Arguments.

Section S.
  Context {N : numeric}.
  (** The pair at [p] is an eigenvector of its local problem whose eigenvalue is not negative. *)
  Definition stuck_at (hs : list (dense N)) (l e : dense N) (sites : list (dense N)) (p : nat) : Prop :=
    exists pre a a' post hpre h h' hpost, at_pair p sites hs pre a a' post hpre h h' hpost /\
      stuck [size 0 a; size 1 a; size 1 a'; size 2 a'] (local_matrix pre hpre h h' post hpost l e) (pair_amp a a').
End S.
