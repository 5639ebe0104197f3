(** Examples for the compression of operator chains. *)
From Verif Require Import Base Quantity QuantityProofs Ring Index SpecIndex IndexProofs Dense BTensor SpecBTensor BTensorProofs BTensorThms BTensorEx SpecEdges BSvd SpecSvd SvdDense SvdEx Truncate BTrunc BTruncEx SpecChain SpecSector MoveEx Coalesce SpecCoalesce.
Set Implicit Arguments.

(** Two sites with one particle each at most. The bond between them raises, lowers, and has three neutral elements, one of them
    not needed. *)
Definition ocA : zt := zB (q 0) 4 [1; 2; 5; 2] [1; 1; 1; 1; 1; 1; 1; 1; 1; 1] [q 0; q 0; q 1; q (-1); q 0; q 1; q 0; q 0; q 0; q (-1)]
  [([0; 0; 1; 0], dl [1; 1; 1; 1] [1]%Z); ([0; 0; 2; 1], dl [1; 1; 1; 1] [3]%Z); ([0; 0; 4; 0], dl [1; 1; 1; 1] [1]%Z); ([0; 1; 0; 0], dl [1; 1; 1; 1] [2]%Z); ([0; 1; 1; 1], dl [1; 1; 1; 1] [1]%Z); ([0; 1; 3; 1], dl [1; 1; 1; 1] [5]%Z)].
Definition ocB : zt := zB (q 0) 4 [5; 2; 1; 2] [1; 1; 1; 1; 1; 1; 1; 1; 1; 1] [q 1; q 0; q (-1); q 0; q 0; q 0; q 1; q 0; q 0; q (-1)]
  [([0; 0; 0; 1], dl [1; 1; 1; 1] [1]%Z); ([1; 1; 0; 1], dl [1; 1; 1; 1] [7]%Z); ([2; 1; 0; 0], dl [1; 1; 1; 1] [1]%Z); ([3; 0; 0; 0], dl [1; 1; 1; 1] [1]%Z); ([3; 1; 0; 1], dl [1; 1; 1; 1] [1]%Z); ([4; 1; 0; 1], dl [1; 1; 1; 1] [1]%Z)].
(** All matrix elements of two sites, section sizes and block indices. *)
Definition elements2 (A B : zt) : result (result (list Z)) :=
  rmap (fun DA => rmap (fun DB => flat_map (fun o => map (fun i => @op_amp ring_Z [DA; DB] o i 0 0) (idxs [2; 2])) (idxs [2; 2])) (to_dense B)) (to_dense A).
Definition show_chain (x : option (result (list zt))) :=
  option_map (rmap (fun l => (map (fun T => (b_ss T, map fst (b_blocks T))) l, match l with [A; B] => elements2 A B | _ => UB end))) x.

Definition ock : list nat * list z_group := ([1; 1; 1; 1; 1], [q (-1); q 0; q 1; q 0; q 0]).
Lemma oc_fit : op_chain (@blegs z_group ring_Z) (@bdual z_group) [ocA; ocB] mvx mvx.
Proof.
  cbn [op_chain]. exists ([1; 1], [q 0; q 1]), ock, ([1; 1], [q 0; q (-1)]). split.
  - unfold blegs, bdual. cbn. repeat f_equal; apply sig_eq; reflexivity.
  - exists ([1; 1], [q 0; q 1]), mvx, ([1; 1], [q 0; q (-1)]). split; [|reflexivity]. unfold blegs, bdual. cbn. repeat f_equal; apply sig_eq; reflexivity.
Qed.
Lemma oc_stored : exists Ds, Forall2 (stored 100) [ocA; ocB] Ds /\ bonds_reached [ocA; ocB] Ds 1.
Proof.
  assert (VA : valid ocA) by ex_valid. assert (VB : valid ocB) by ex_valid. destruct (to_dense_spec VA) as (DA & EA & FA). destruct (to_dense_spec VB) as (DB & EB & FB).
  exists [DA; DB]. split.
  - constructor; [|constructor; [|constructor]]; (split; [assumption|split; [assumption|]]); intros s Hs; cbn in Hs; lia.
  - assert (H : rmap (fun A => map (fun '(o, i, k) => Z.eqb (@op_amp ring_Z [A] [o] [i] 0 k) 0) [(1, 0, 0); (0, 0, 1); (0, 1, 2); (1, 1, 3); (0, 0, 4)]) (to_dense ocA) = Ok [false; false; false; false; false]) by (vm_compute; reflexivity).
    rewrite EA in H. cbn [rmap rbind map] in H. injection H as H0 H1 H2 H3 H4. assert (SA : dsh DA = [1; 2; 5; 2]) by (rewrite (proj1 FA); reflexivity).
    intros [|[|i]] X EX HX; cbn in HX; try lia. cbn in EX. injection EX as <-. split; [cbn; discriminate|]. cbn [firstn map]. unfold size. rewrite SA. cbn [nth].
    assert (C : forall b, b < 5 -> carries (right_leg ocA) b (nth b (snd (right_leg ocA)) (qe z_group))).
    { intros b Hb. exists b, 0. split; [|reflexivity]. split; [exact Hb|]. split; [|]; do 5 (destruct b as [|b]; [cbn; lia|]); lia. }
    intros b Hb. change (b < 5) in Hb.
    assert (W : forall o i, Z.eqb (@op_amp ring_Z [DA] [o] [i] 0 b) 0 = false -> o < 2 -> i < 2 -> exists out inn a y, in_range [2] out = true /\ in_range [2] inn = true /\ a < 1 /\
      carries (right_leg ocA) y (nth b (snd (right_leg ocA)) (qe z_group)) /\ @op_amp ring_Z [DA] out inn a y <> rz).
    { intros o i N Ho Hi. exists [o], [i], 0, b. split; [cbn [in_range]; rewrite (proj2 (Nat.ltb_lt _ _) Ho); reflexivity|]. split; [cbn [in_range]; rewrite (proj2 (Nat.ltb_lt _ _) Hi); reflexivity|]. split; [lia|]. split; [apply C; exact Hb|]. intros E. rewrite E in N. discriminate. }
    destruct b as [|[|[|[|[|b]]]]]; [apply (W 1 0)|apply (W 0 0)|apply (W 0 1)|apply (W 1 1)|apply (W 0 0)|]; try assumption; lia.
Qed.
(** No block is stored: the decomposition reads outside of its matrices. *)
Definition oz : zt := zB (q 0) 4 [1; 1; 1; 1] [1; 1; 1; 1] [q 0; q 0; q 0; q 0] [].
Lemma oz_coalesce : valid oz /\ nonempty oz /\ op_chain (@blegs z_group ring_Z) (@bdual z_group) [oz; oz] mvx mvx /\
  forall dsvd, coalesce 100 zgt zlow zsq dsvd [oz; oz] 0%N = Some UB.
Proof.
  split; [ex_valid|]. split; [nonempty_tac|]. split.
  - cbn [op_chain]. exists mvx, mvx, mvx. split; [unfold blegs, bdual, mvx; cbn; repeat f_equal; apply sig_eq; reflexivity|]. exists mvx, mvx, mvx. split; [unfold blegs, bdual, mvx; cbn; repeat f_equal; apply sig_eq; reflexivity|reflexivity].
  - intros dsvd. assert (H : option_map (rmap (fun _ => tt)) (coalesce 100 zgt zlow zsq dsvd [oz; oz] 0%N) = Some UB) by (vm_compute; reflexivity). destruct (coalesce 100 zgt zlow zsq dsvd [oz; oz] 0%N) as [[| |]|]; cbn in H; congruence.
Qed.
