(** Property theorems about the DMRG driver (C42, C43, C59) and the gauge moves (C44, positions and gauge). *)
From Verif Require Import Base Dmrg SpecDmrg DmrgProofs DmrgThms.

(** C42: from any centre position of any chain of two or more sites, the driver never leaves the chain or the environment
    vector, does not throw, every sweep updates the inner bonds twice and the end bonds once, and the reported position is the
    starting bond. [good_sweep] also contains that every call reads in range. *)
Theorem C42_driver : forall S E (lenv renv : nat -> S -> E -> E) bond_update pull_left push_right ledge redge dflt dense k stop sites oc env,
  2 <= length sites -> oc < length sites -> generate_env lenv renv dflt sites oc ledge redge = Ok env ->
  exists sites' log,
    dmrg_impl lenv renv bond_update pull_left push_right dense k stop (mkDst sites env (Z.of_nat oc)) =
      Ok (sites', Z.of_nat (if oc =? length sites - 1 then length sites - 2 else oc), log) /\
    length sites' = length sites /\ length log <= k /\ (0 < k -> log <> []) /\
    Forall (good_sweep lenv renv ledge redge (length sites - 1)) log.
Proof. exact dmrg_visits. Qed.
Print Assumptions C42_driver.
(** A sweep ends where it began, in the direction it began with. *)
Theorem C42_sweep_returns : forall S E (lenv renv : nat -> S -> E -> E) bond_update ledge redge M p st,
  1 <= M -> p < M -> env_inv lenv renv ledge redge (M + 1) p st ->
  exists st' log, sweep lenv renv bond_update (round_trip M) st (start_dir M p) (Z.of_nat M - 1) = Ok (st', start_dir M p, log) /\
    d_oc st' = d_oc st /\ good_sweep lenv renv ledge redge M log.
Proof. exact sweep_visits. Qed.
Print Assumptions C42_sweep_returns.
Example C42_ex : exists s l, frun true 2 [Left; Left; Centre; Right; Right] 2 = Ok (s, 2%Z, l) /\
  map (map (@c_oc _ _)) l = [[2; 1; 0; 1; 2; 3]; [2; 1; 0; 1; 2; 3]]%Z.
Proof. do 2 eexists. split; vm_compute; reflexivity. Qed.

(** C43. Full claim: the chain is in canonical form around the reported centre. True when the run starts on one of the last two
    sites, or (dense chains) on the first; [lo], [ro] are left and right orthonormality, guaranteed for the halves of the
    decomposition they are read from. *)
Theorem C43_label_partial : forall S E (lenv renv : nat -> S -> E -> E) bond_update pull_left push_right ledge redge dflt (lo ro : S -> Prop),
  (forall i a b l r, lo (fst (bond_update true i a b l r))) -> (forall i a b l r, ro (snd (bond_update false i a b l r))) ->
  (forall a b, ro (snd (pull_left a b))) -> (forall a b, lo (fst (push_right a b))) ->
  forall dense k stop sites oc env, 2 <= length sites -> oc < length sites ->
  generate_env lenv renv dflt sites oc ledge redge = Ok env -> gauge lo ro sites (Z.of_nat oc) -> 1 <= k ->
  length sites - 2 <= oc \/ dense = true /\ oc = 0 ->
  exists sites' p log,
    dmrg_impl lenv renv bond_update pull_left push_right dense k stop (mkDst sites env (Z.of_nat oc)) = Ok (sites', p, log) /\
    gauge lo ro sites' p.
Proof. exact dmrg_label. Qed.
Print Assumptions C43_label_partial.
(** The exact position of the centre in all cases: one site to the right of the reported one in the other cases. *)
Theorem C43_true_centre : forall S E (lenv renv : nat -> S -> E -> E) bond_update pull_left push_right ledge redge dflt (lo ro : S -> Prop),
  (forall i a b l r, lo (fst (bond_update true i a b l r))) -> (forall i a b l r, ro (snd (bond_update false i a b l r))) ->
  (forall a b, ro (snd (pull_left a b))) -> (forall a b, lo (fst (push_right a b))) ->
  forall dense k stop sites oc env, 2 <= length sites -> oc < length sites ->
  generate_env lenv renv dflt sites oc ledge redge = Ok env -> gauge lo ro sites (Z.of_nat oc) -> 1 <= k ->
  exists sites' p log,
    dmrg_impl lenv renv bond_update pull_left push_right dense k stop (mkDst sites env (Z.of_nat oc)) = Ok (sites', Z.of_nat p, log) /\
    p = (if oc =? length sites - 1 then length sites - 2 else oc) /\
    gauge lo ro sites' (if dense && (p =? 0) then 0%Z else if p =? length sites - 2 then Z.of_nat p else (Z.of_nat p + 1)%Z).
Proof. exact dmrg_centre. Qed.
Print Assumptions C43_true_centre.
Theorem C43_dense_refuted : exists sites sites' p log,
  gauge (fun s => s = Left) (fun s => s = Right) sites 1 /\ frun true 3 sites 1 = Ok (sites', p, log) /\
  ~ gauge (fun s => s = Left) (fun s => s = Right) sites' p.
Proof. exact dense_label_refuted. Qed.
Print Assumptions C43_dense_refuted.
Theorem C43_block_refuted : exists sites sites' p log,
  gauge (fun s => s = Left) (fun s => s = Right) sites 0 /\ frun false 3 sites 0 = Ok (sites', p, log) /\
  ~ gauge (fun s => s = Left) (fun s => s = Right) sites' p.
Proof. exact block_label_refuted. Qed.
Print Assumptions C43_block_refuted.
Theorem C43_no_iteration_refuted : forall dense, exists sites sites' p log,
  gauge (fun s => s = Left) (fun s => s = Right) sites 2 /\ frun dense 0 sites 2 = Ok (sites', p, log) /\
  ~ gauge (fun s => s = Left) (fun s => s = Right) sites' p.
Proof. exact zero_iter_refuted. Qed.
Print Assumptions C43_no_iteration_refuted.
Example C43_ex : gauge (fun s => s = Left) (fun s => s = Right) [Left; Left; Left; Centre] 3 /\
  exists l, frun true 2 [Left; Left; Left; Centre] 3 = Ok ([Left; Left; Centre; Right], 2%Z, l).
Proof. split; [apply fgauge_ok; [cbn; lia|reflexivity]|]. eexists. vm_compute. reflexivity. Qed.

(** C59: in every sweep of every run, whatever the update does to the sites, each call reads exactly the environments of the
    sites as they are at that moment. *)
Theorem C59_environments_current : forall S E (lenv renv : nat -> S -> E -> E) bond_update pull_left push_right ledge redge dflt dense k stop sites oc env,
  2 <= length sites -> oc < length sites -> generate_env lenv renv dflt sites oc ledge redge = Ok env ->
  exists r log, dmrg_impl lenv renv bond_update pull_left push_right dense k stop (mkDst sites env (Z.of_nat oc)) = Ok (r, log) /\
    forall sw c, In sw log -> In c sw ->
      c_left c = from_left lenv 0 ledge (firstn (Z.to_nat (c_oc c)) (c_sites c)) /\
      c_right c = from_right renv (Z.to_nat (c_oc c) + 2) redge (skipn (Z.to_nat (c_oc c) + 2) (c_sites c)).
Proof.
  intros S E lenv renv upd pl pr le re dflt dense k stop sites oc env H1 H2 H3.
  destruct (C42_driver S E lenv renv upd pl pr le re dflt dense k stop sites oc env H1 H2 H3) as [s [l [A [_ [_ [_ B]]]]]].
  eexists; exists l. split; [exact A|]. intros sw c Hs Hc. rewrite Forall_forall in B. destruct (B _ Hs) as [_ [B2 _]].
  rewrite Forall_forall in B2. destruct (B2 _ Hc) as [_ [_ [_ [X Y]]]]. split; [exact X|exact Y].
Qed.
Print Assumptions C59_environments_current.
(** The initial environments: built from both ends for any centre. *)
Theorem C59_initial : forall S E (lenv renv : nat -> S -> E -> E) ledge redge dflt sites oc, oc < length sites ->
  exists env, generate_env lenv renv dflt sites oc ledge redge = Ok env /\ length env = length sites + 2 /\
    (forall i, i <= oc -> nth_error env i = Some (left_env lenv ledge sites i)) /\
    (forall i, oc + 1 <= i <= length sites -> nth_error env (i + 1) = Some (right_env renv redge sites i)).
Proof. intros S E lenv renv ledge redge dflt sites oc. apply (generate_env_spec lenv renv (fun _ _ a b _ _ => (a, b)) ledge redge dflt). Qed.
Print Assumptions C59_initial.
(** Symbolic environments: the environment is the history of (position, site) absorbed. *)
Definition henv (i : nat) (s : nat) (e : list (nat * nat)) : list (nat * nat) := (i, s) :: e.
Example C59_ex : exists env r l,
  generate_env henv henv [] [10; 20; 30; 40] 1 [] [] = Ok env /\
  dmrg_impl henv henv (fun _ _ a b _ _ => (a + 1, b + 1)) pair pair true 1 (fun _ => false) (mkDst [10; 20; 30; 40] env 1%Z) = Ok (r, [l]) /\
  map (fun c => (c_oc c, c_left c, c_right c)) l =
    [(1%Z, [(0, 10)], [(3, 40)]); (0%Z, [], [(2, 31); (3, 40)]); (1%Z, [(0, 11)], [(3, 40)]); (2%Z, [(1, 23); (0, 11)], [])].
Proof. do 3 eexists. split; [vm_compute; reflexivity|]. split; vm_compute; reflexivity. Qed.

(** C44, positions and gauge (the state itself: see Prop_Move). [pull_left] and [push_right] stand for the local decomposition
    and absorption. *)
Theorem C44_gauge : forall S (lo ro : S -> Prop) (pull_left push_right : S -> S -> S * S),
  (forall a b, ro (snd (pull_left a b))) -> (forall a b, lo (fst (push_right a b))) ->
  forall sites oc i, oc < length sites -> i < length sites -> gauge lo ro sites (Z.of_nat oc) ->
  exists sites', move_oc pull_left push_right sites (Z.of_nat oc) (Z.of_nat i) = Ok (sites', Z.of_nat i) /\
    length sites' = length sites /\ gauge lo ro sites' (Z.of_nat i) /\ (i = oc -> sites' = sites).
Proof. intros S lo ro pl pr H1 H2. apply move_oc_gauge; assumption. Qed.
Print Assumptions C44_gauge.
Theorem C44_out_of_range : forall S (pull_left push_right : S -> S -> S * S) sites oc i,
  (i < 0 \/ Z.of_nat (length sites) <= i)%Z -> move_oc pull_left push_right sites oc i = Throw InvalidArgument.
Proof. intros S pl pr sites oc i. apply move_oc_out; auto. Qed.
Print Assumptions C44_out_of_range.
Example C44_gauge_ex : move_oc (fun _ _ => (Centre, Right)) (fun _ _ => (Left, Centre)) [Left; Left; Left; Centre] 3 0 = Ok ([Centre; Right; Right; Right], 0%Z).
Proof. reflexivity. Qed.
