(** Random configurations of given total quantity (C47). *)
From Verif Require Import Base Quantity QuantityProofs BTensor SpecIndex BTensorEx Rand SpecRand RandProofs.
From Coq Require Import Lia.

(** Whatever the random source: a configuration of the requested total, or an exception. *)
Theorem C47_sound : forall (G : abgroup) (src : nat -> nat) (phys : list (list G)) (total : G) n_pass, Forall (fun cv => cv <> []) phys ->
  generate_random_string src phys total n_pass = Throw InvalidArgument \/
  exists out, generate_random_string src phys total n_pass = Ok out /\ config phys total out.
Proof. exact string_sound. Qed.
Print Assumptions C47_sound.
Definition exph : list (list z_group) := [[q 1; q (-1)]; [q 0; q 3; q 5]; [q (-1); q 1]].
Example C47_sound_ex : Forall (fun cv => cv <> []) exph /\ generate_random_string (fun i => i) exph (q 5) 1 = Ok [0; 2; 0] /\
  generate_random_string (fun i => i) exph (q 2) 9 = Throw InvalidArgument.
Proof. split; [repeat constructor; discriminate|]. split; vm_compute; reflexivity. Qed.

(** A site without quantities. *)
Theorem C47_empty_site_refuted : forall (G : abgroup) (src : nat -> nat) (phys : list (list G)) (total : G) n_pass, n_pass <> 0 -> In [] phys ->
  generate_random_string src phys total n_pass = UB.
Proof. exact string_empty_site. Qed.
Print Assumptions C47_empty_site_refuted.
Example C47_empty_site_ex : 3 <> 0 /\ In [] [[q 1; q 2]; []] /\ generate_random_string (fun i => i) [[q 1; q 2]; []] (q 1) 3 = UB.
Proof. split; [discriminate|]. split; [right; left; reflexivity|vm_compute; reflexivity]. Qed.

(** Integers with a common step at every site (spins): one pass always succeeds when the total can be reached at all. *)
Theorem C47_complete_partial : forall (src : nat -> nat) d S (phys : list (list z_group)) (total : z_group) n_pass,
  (0 < d)%Z -> Forall2 (steps d) S phys -> (reach d S <= 32767)%Z -> n_pass <> 0 ->
  (exists o, config phys total o) <-> (exists out, generate_random_string src phys total n_pass = Ok out).
Proof. exact string_iff. Qed.
Print Assumptions C47_complete_partial.
Example C47_complete_ex : let ph := [[q 1; q (-1)]; [q 1; q (-1)]; [q 2; q 0; q (-2)]] in
  Forall2 (steps 2) [((-1)%Z, 1%nat); ((-1)%Z, 1%nat); ((-2)%Z, 2%nat)] ph /\ (reach 2 [((-1)%Z, 1%nat); ((-1)%Z, 1%nat); ((-2)%Z, 2%nat)] <= 32767)%Z /\ config ph (q 2) [0; 1; 0].
Proof.
  cbv zeta. split; [|split; [vm_compute; discriminate|]].
  - repeat apply Forall2_cons; [| | |apply Forall2_nil].
    1,2: split; [intros v [<-|[<-|[]]]; [exists 1|exists 0]; cbn; lia|intros k Hk; cbn [fst snd] in *; destruct k as [|[|k]]; [exists (q (-1))|exists (q 1)|lia]; cbn; auto].
    split; [intros v [<-|[<-|[<-|[]]]]; [exists 2|exists 1|exists 0]; cbn; lia|intros k Hk; cbn [fst snd] in *; destruct k as [|[|[|k]]]; [exists (q (-2))|exists (q 0)|exists (q 2)|lia]; cbn; auto].
  - split; [reflexivity|]. split; [|apply sig_eq; vm_compute; reflexivity]. intros [|[|[|i]]] Hi; cbn in *; lia.
Qed.

(** Without a common step, no number of passes is enough. *)
Theorem C47_complete_refuted : exists (src : nat -> nat) (cv : list z_group) (total : z_group) o, config [cv; cv] total o /\
  forall n_pass, generate_random_string src [cv; cv] total n_pass = Throw InvalidArgument.
Proof.
  exists (fun i => match i with 0 => 2 | _ => 0 end), [q 0; q 3; q 5], (q 6), [1; 1]. split.
  - split; [reflexivity|]. split; [|apply sig_eq; vm_compute; reflexivity]. intros [|[|i]] Hi; cbn in *; lia.
  - intros n. unfold generate_random_string. destruct (Nat.eqb_spec n 0); [reflexivity|]. clear.
    assert (E : rand_start (fun i => match i with 0 => 2 | _ => 0 end) [[q 0; q 3; q 5]; [q 0; q 3; q 5]] = Ok ([2; 0], q 5)).
    { cbv [rand_start rfold length Nat.eqb app]. cbn -[z_group qop qe]. do 2 f_equal. apply sig_eq. vm_compute. reflexivity. }
    rewrite E. cbn [rbind]. induction n as [|n IH]; [reflexivity|]. cbn [rand_passes].
    assert (E2 : rand_pass (q 6) [[q 0; q 3; q 5]; [q 0; q 3; q 5]] [2; 0] (q 5) (qdist2 z_group (q 5) (q 6)) = Ok ([2; 0], q 5, qdist2 z_group (q 5) (q 6))).
    { cbn [rand_pass]. change (qdist2 z_group (q 5) (q 6) =? 0)%Z with false. cbv iota. change (rnth [q 0; q 3; q 5] 2) with (Ok (q 5)). cbn [rbind].
      assert (P1 : rand_pick (q 6) (qop z_group (q 5) (qinv z_group (q 5))) [q 0; q 3; q 5] 2 (qdist2 z_group (q 5) (q 6)) = (2, 1%Z)) by (vm_compute; reflexivity).
      rewrite P1. change (rnth [q 0; q 3; q 5] 2) with (Ok (q 5)). cbn [rbind]. change (1 =? 0)%Z with false. cbv iota. change (rnth [q 0; q 3; q 5] 0) with (Ok (q 0)). cbn [rbind].
      match goal with |- context [rand_pick ?c ?s ?l ?o ?d] => assert (P2 : rand_pick c s l o d = (0, 1%Z)) by (vm_compute; reflexivity) end.
      rewrite P2. change (rnth [q 0; q 3; q 5] 0) with (Ok (q 0)). cbn [rbind]. do 3 f_equal. apply sig_eq. vm_compute. reflexivity. }
    rewrite E2. cbn [rbind]. change (qdist2 z_group (q 5) (q 6) =? 0)%Z with false. exact IH.
Qed.
Print Assumptions C47_complete_refuted.
