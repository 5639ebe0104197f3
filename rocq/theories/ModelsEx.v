(** The concrete Hamiltonians of the code. *)
From Verif Require Import Base Ring SpecIndex Index IndexProofs Dense BTensor BTensorArith Tensordot View Models SpecModels ModelsProofs ModelsThms.

Section Ex.
  Context {R : ring}.
  Add Ring Rring3 : (ring_th R).
  Local Open Scope R_scope.
  Notation D := (dense R).

  Ltac ev := cbv -[radd rmul ropp rz ro rconj rT].
  Ltac lt2 p := destruct p as [|[|p]]; [| |lia].
  Ltac lt4 p := destruct p as [|[|[|[|p]]]]; [| | | |lia].

  Lemma put_op_spec r c m (t : D) A B d : dsh t = [A; d; B; d] -> dsh m = [d; d] -> r < A -> c < B ->
    exists t', put_op r c m t = Ok t' /\ dsh t' = [A; d; B; d] /\
      forall a p b q, dv t' [a; p; b; q] = if (a =? r)%nat && (b =? c)%nat then dv m [p; q] else dv t [a; p; b; q].
  Proof.
    intros Et Em Hr Hc. unfold put_op, t_index_put. rewrite Et. cbn [t_positions]. unfold wrap.
    rewrite !(proj2 (Z.ltb_ge _ 0)) by lia. rewrite !(proj2 (Z.leb_le 0 _)) by lia. rewrite !(proj2 (Z.ltb_lt _ _)) by lia.
    rewrite !Nat2Z.id. cbn [andb rbind t_rest]. rewrite Em, leqb_refl. eexists. split; [reflexivity|]. split; [reflexivity|].
    intros a p b q. cbn [dv t_hits t_rest]. rewrite andb_true_r. reflexivity.
  Qed.
  Ltac put H := match goal with |- context [put_op ?r ?c ?m ?t] =>
    let t' := fresh "t" in let E := fresh "E" in let S := fresh "S" in
    edestruct (put_op_spec r c m t) as (t' & E & S & H); [first [reflexivity|eassumption]|reflexivity|lia|lia|]; rewrite E; cbn [rbind] end.

  (** ** Heisenberg *)
  Definition hA (J : R) (k : nat) : mat R :=
    let '(sx, isy, sz, lo, id) := pauli (R := R) in
    match k with 1%nat => mscale ((ro + ro) * J) (of_dense (transp lo)) | 2%nat => mscale ((ro + ro) * J) (of_dense lo) | _ => mscale J (of_dense sz) end.
  Definition hB (k : nat) : mat R :=
    let '(sx, isy, sz, lo, id) := pauli (R := R) in
    match k with 1%nat => of_dense lo | 2%nat => of_dense (transp lo) | _ => of_dense sz end.
  Lemma Heisenberg_local_auto J : exists W, Heisenberg_local J = Ok W /\ auto_tensor 2 3 (fun _ _ => rz) (hA J) hB W.
  Proof.
    unfold Heisenberg_local. cbn [pauli]. put V1; put V2; put V3; put V4; put V5; put V6; put V7; put V8; put V9.
    eexists. split; [reflexivity|]. split; [assumption|]. intros a p c q Ha Hp Hc Hq.
    rewrite V9, V8, V7, V6, V5, V4, V3, V2, V1. clear - Ha Hp Hc Hq.
    destruct a as [|[|[|[|[|a]]]]]; try lia; destruct c as [|[|[|[|[|c]]]]]; try lia; cbn [Nat.eqb andb]; try reflexivity;
      lt2 p; lt2 q; try reflexivity; ev; ring.
  Qed.

  Lemma on_pair_slot d n i M N ps qs : S i < n -> in_range (repeat d n) ps = true -> in_range (repeat d n) qs = true ->
    on_pair (R := R) n i M N ps qs = M (nth i ps 0%nat) (nth i qs 0%nat) * N (nth (S i) ps 0%nat) (nth (S i) qs 0%nat) *
      off n (S i) (fun j => if (j =? i)%nat then one1 else delta R) ps qs.
  Proof.
    intros Hi Hp Hq. rewrite on_pair_tf. rewrite (tf_slot d n _ i) by (auto; lia). rewrite Nat.eqb_refl. rewrite <- rmul_assoc. f_equal.
    unfold off at 1. rewrite (tf_slot d n _ (S i)) by auto. rewrite (proj2 (Nat.eqb_neq (S i) i)) by lia. rewrite Nat.eqb_refl. f_equal.
    apply (off_ext d n); auto. intros j p q _ Hj _ _. destruct (j =? i)%nat; [reflexivity|]. rewrite (proj2 (Nat.eqb_neq j (S i)) Hj). reflexivity.
  Qed.
  Lemma on_site_slot d n i M ps qs : i < n -> in_range (repeat d n) ps = true -> in_range (repeat d n) qs = true ->
    on_site (R := R) n i M ps qs = M (nth i ps 0%nat) (nth i qs 0%nat) * off n i (fun _ => delta R) ps qs.
  Proof.
    intros Hi Hp Hq. rewrite on_site_tf. rewrite (tf_slot d n _ i) by auto. rewrite Nat.eqb_refl. f_equal.
    apply (off_ext d n); auto. intros j p q _ Hj _ _. rewrite (proj2 (Nat.eqb_neq j i) Hj). reflexivity.
  Qed.

  Theorem Heisenberg_impl_spec (J : R) n : 0 < n ->
    exists Ws, Heisenberg_impl J n = Ok Ws /\ length Ws = n /\ mpo_shape 2 1 Ws 1 /\
      ceq 2 n (mpo_op Ws) (cscale J (csum (fun i => sigma_sigma R n i) (seq 0 (n - 1)))).
  Proof.
    intros Hn. destruct (Heisenberg_local_auto J) as (W & E & HW).
    destruct (chain_of_spec 2 3 _ _ _ W n HW Hn) as (Ws & E2 & HL & HS & HC).
    exists Ws. split; [unfold Heisenberg_impl; rewrite E; exact E2|]. split; [exact HL|]. split; [exact HS|].
    eapply ceq_trans; [exact HC|]. intros ps qs Hp Hq. unfold ham, cadd, csum at 1, cscale. rewrite sumf_zero.
    2:{ intros i Hi. apply in_seq in Hi. rewrite (on_site_slot 2) by (auto; lia). ring. }
    rewrite radd_0_l. unfold csum. rewrite <- sumf_mul_l. apply sumf_ext. intros i Hi. apply in_seq in Hi.
    cbn [seq]. rewrite !sumf_cons, sumf_nil. unfold sigma_sigma, cadd, cscale. rewrite !(on_pair_slot 2) by (auto; lia).
    generalize (off n (S i) (fun j => if (j =? i)%nat then one1 else delta R) ps qs). intros r.
    pose proof (range_nth 2 n ps i Hp ltac:(lia)) as H1. pose proof (range_nth 2 n qs i Hq ltac:(lia)) as H2.
    pose proof (range_nth 2 n ps (S i) Hp ltac:(lia)) as H3. pose proof (range_nth 2 n qs (S i) Hq ltac:(lia)) as H4.
    revert H1 H2 H3 H4. generalize (nth i ps 0%nat) (nth i qs 0%nat) (nth (S i) ps 0%nat) (nth (S i) qs 0%nat). intros a b c e Ha Hb Hc He.
    lt2 a; lt2 b; lt2 c; lt2 e; ev; ring.
  Qed.
  (** A chain with no site. *)
  Lemma Heisenberg_impl_0 (J : R) : Heisenberg_impl J 0 = UB. Proof. reflexivity. Qed.

  (** ** Fermions *)
  Definition cs (s : bool) : mat R := let '(c_up, c_dn, F, id) := fermions (R := R) in of_dense (if s then c_up else c_dn).
  Definition parity : mat R := let '(c_up, c_dn, F, id) := fermions (R := R) in of_dense F.
  Lemma parity2 p q : p < 4 -> q < 4 -> mmul 4 parity parity p q = delta R p q.
  Proof. intros Hp Hq. lt4 p; lt4 q; ev; ring. Qed.
  Ltac conjs := rewrite ?rconj_opp, ?rconj_0, ?rconj_1.
  Lemma parity_adj p q : p < 4 -> q < 4 -> madj parity p q = parity p q.
  Proof. intros Hp Hq. lt4 p; lt4 q; ev; conjs; ring. Qed.
  Lemma cs_odd s : odd 4 parity (cs s).
  Proof. intros p q Hp Hq. destruct s; lt4 p; lt4 q; ev; ring. Qed.
  Lemma cs_adj_odd s : odd 4 parity (madj (cs s)).
  Proof. intros p q Hp Hq. destruct s; lt4 p; lt4 q; ev; conjs; ring. Qed.
  Lemma cs_anti s t p q : p < 4 -> q < 4 -> madd (mmul 4 (cs s) (cs t)) (mmul 4 (cs t) (cs s)) p q = rz * delta R p q.
  Proof. intros Hp Hq. destruct s, t; lt4 p; lt4 q; ev; ring. Qed.
  Lemma cs_anti_adj s t p q : p < 4 -> q < 4 ->
    madd (mmul 4 (cs s) (madj (cs t))) (mmul 4 (madj (cs t)) (cs s)) p q = (if Bool.eqb s t then ro else rz) * delta R p q.
  Proof. intros Hp Hq. destruct s, t; lt4 p; lt4 q; ev; conjs; ring. Qed.

  Theorem fermions_car c_up c_dn F id n i j (s t : bool) : fermions (R := R) = (c_up, c_dn, F, id) -> i < n -> j < n ->
    let C s i := with_string n i (of_dense F) (of_dense (if s : bool then c_up else c_dn)) in
    ceq 4 n (anti 4 n (C s i) (C t j)) (czero R) /\
    ceq 4 n (anti 4 n (C s i) (cadj (C t j))) (if (i =? j)%nat && Bool.eqb s t then @cone R else czero R).
  Proof.
    intros E Hi Hj C.
    assert (EC : forall s i, C s i = with_string n i parity (cs s)).
    { intros. unfold C, parity, cs. rewrite E. reflexivity. }
    rewrite !EC. split.
    - eapply ceq_trans; [apply (anti_strings 4 n parity parity2 i j (cs s) (cs t) rz); auto using cs_odd, cs_anti|].
      destruct (i =? j)%nat; [|apply ceq_refl]. intros ps qs _ _. unfold cscale, czero. ring.
    - apply ceq_trans with (anti 4 n (with_string n i parity (cs s)) (with_string n j parity (madj (cs t)))).
      + unfold anti. apply ceq_cadd; apply ceq_cmul; first [apply ceq_refl|apply (string_adj 4 n parity parity_adj)].
      + eapply ceq_trans; [apply (anti_strings 4 n parity parity2 i j (cs s) (madj (cs t)) (if Bool.eqb s t then ro else rz)); auto using cs_odd, cs_adj_odd, cs_anti_adj|].
        destruct (i =? j)%nat; [|apply ceq_refl]. cbn [andb]. destruct (Bool.eqb s t); intros ps qs _ _; unfold cscale, czero; ring.
  Qed.

  (** ** Hubbard *)
  Definition uA (k : nat) : mat R :=
    match k with 1%nat => mmul 4 (madj (cs true)) parity | 2%nat => mmul 4 (madj (cs false)) parity
    | 3%nat => mmul 4 parity (cs true) | _ => mmul 4 parity (cs false) end.
  Definition uB (k : nat) : mat R :=
    match k with 1%nat => cs true | 2%nat => cs false | 3%nat => madj (cs true) | _ => madj (cs false) end.
  Definition num (s : bool) : mat R := mmul 4 (madj (cs s)) (cs s).
  Definition uLoc (U mu : R) : mat R :=
    madd (mscale U (mmul 4 (num true) (num false))) (mscale (- mu) (madd (num true) (num false))).
  Lemma Hubbard_local_auto U mu : exists W, Hubbard_local U mu = Ok W /\ auto_tensor 4 4 (uLoc U mu) uA uB W.
  Proof.
    unfold Hubbard_local. cbn [fermions].
    repeat match goal with |- context [t_mm ?a ?b] => let m := fresh "m" in let E := fresh "M" in
      destruct (t_mm a b) as [m| |] eqn:E; [|discriminate E..]; injection E as E; subst m; cbn [rbind] end.
    put V1; put V2; put V3; put V4; put V5; put V6; put V7; put V8; put V9; put V10; put V11.
    eexists. split; [reflexivity|]. split; [assumption|]. intros a p c q Ha Hp Hc Hq.
    rewrite V11, V10, V9, V8, V7, V6, V5, V4, V3, V2, V1. clear - Ha Hp Hc Hq.
    destruct a as [|[|[|[|[|[|a]]]]]]; try lia; destruct c as [|[|[|[|[|[|c]]]]]]; try lia; cbn [Nat.eqb andb]; try reflexivity;
      lt4 p; lt4 q; try reflexivity; ev; conjs; ring.
  Qed.

  (** C_s on site i, and the terms of the Hamiltonian. *)
  Definition Cf (n : nat) (s : bool) (i : nat) : chop R := with_string n i parity (cs s).
  Lemma Cf_adj n s i : ceq 4 n (cadj (Cf n s i)) (with_string n i parity (madj (cs s))).
  Proof. apply (string_adj 4 n parity parity_adj). Qed.
  Lemma hop_right n s i : S i < n -> ceq 4 n (cmul 4 n (cadj (Cf n s i)) (Cf n s (S i))) (on_pair n i (mmul 4 (madj (cs s)) parity) (cs s)).
  Proof.
    intros Hi. eapply ceq_trans; [apply ceq_cmul; [apply Cf_adj|apply ceq_refl]|].
    eapply ceq_trans; [apply (strings_lt 4 n parity parity2 i (S i)); lia|]. rewrite on_pair_tf. apply tf_ext. intros k p q Hk Hp Hq.
    destruct (Nat.eqb_spec k i); [reflexivity|]. destruct (Nat.ltb_spec k i).
    - rewrite (proj2 (Nat.eqb_neq k (S i))) by lia. reflexivity.
    - rewrite (proj2 (Nat.ltb_ge k (S i))) by lia. reflexivity.
  Qed.
  Lemma hop_left n s i : S i < n -> ceq 4 n (cmul 4 n (cadj (Cf n s (S i))) (Cf n s i)) (on_pair n i (mmul 4 parity (cs s)) (madj (cs s))).
  Proof.
    intros Hi. eapply ceq_trans; [apply ceq_cmul; [apply Cf_adj|apply ceq_refl]|].
    eapply ceq_trans; [apply (strings_gt 4 n parity parity2 i (S i)); lia|]. rewrite on_pair_tf. apply tf_ext. intros k p q Hk Hp Hq.
    destruct (Nat.eqb_spec k i); [reflexivity|]. destruct (Nat.ltb_spec k i).
    - rewrite (proj2 (Nat.eqb_neq k (S i))) by lia. reflexivity.
    - rewrite (proj2 (Nat.ltb_ge k (S i))) by lia. reflexivity.
  Qed.
  Definition Nf (n : nat) (s : bool) (i : nat) : chop R := cmul 4 n (cadj (Cf n s i)) (Cf n s i).
  Lemma Nf_site n s i : ceq 4 n (Nf n s i) (on_site n i (num s)).
  Proof.
    eapply ceq_trans; [apply ceq_cmul; [apply Cf_adj|apply ceq_refl]|]. apply (strings_eq 4 n parity parity2).
  Qed.
  Lemma on_site_mul n i (M N : mat R) : ceq 4 n (cmul 4 n (on_site n i M) (on_site n i N)) (on_site n i (mmul 4 M N)).
  Proof.
    rewrite !on_site_tf. eapply ceq_trans; [apply tf_mul|]. apply tf_ext. intros k p q Hk Hp Hq.
    destruct (k =? i)%nat; [reflexivity|]. apply mmul_delta_l; auto.
  Qed.

  Theorem Hubbard_spec (U mu : R) c_up c_dn F id n : fermions (R := R) = (c_up, c_dn, F, id) -> 0 < n ->
    let C s i := with_string n i (of_dense F) (of_dense (if s : bool then c_up else c_dn)) in
    let N s i := cmul 4 n (cadj (C s i)) (C s i) in
    let hop s i j := cmul 4 n (cadj (C s i)) (C s j) in
    exists Ws, Hubbard U mu n = Ok Ws /\ length Ws = n /\ mpo_shape 4 1 Ws 1 /\
      ceq 4 n (mpo_op Ws)
        (cadd (csum (fun i => cadd (cscale U (cmul 4 n (N true i) (N false i))) (cscale (- mu) (cadd (N true i) (N false i)))) (seq 0 n))
              (csum (fun i => csum (fun s => cadd (hop s i (S i)) (hop s (S i) i)) [true; false]) (seq 0 (n - 1)))).
  Proof.
    intros E Hn C N hop. destruct (Hubbard_local_auto U mu) as (W & EW & HW).
    destruct (chain_of_spec 4 4 _ _ _ W n HW Hn) as (Ws & E2 & HL & HS & HC).
    exists Ws. split; [unfold Hubbard; rewrite EW; exact E2|]. split; [exact HL|]. split; [exact HS|].
    assert (EC : forall s i, C s i = Cf n s i).
    { intros. unfold C, Cf, parity, cs. rewrite E. reflexivity. }
    eapply ceq_trans; [exact HC|]. unfold ham. apply ceq_cadd; apply ceq_csum; intros i Hi; apply in_seq in Hi; intros ps qs Hp Hq.
    - unfold N, cadd, cscale. rewrite !EC. fold (Nf n true i). fold (Nf n false i).
      rewrite (ceq_cmul 4 n _ _ _ _ (Nf_site n true i) (Nf_site n false i)) by auto.
      rewrite on_site_mul, !Nf_site by auto. rewrite !(on_site_slot 4) by (auto; lia). unfold uLoc, madd, mscale. ring.
    - unfold csum, cadd. cbn [seq]. rewrite !sumf_cons, !sumf_nil. unfold hop. rewrite !EC.
      rewrite !hop_right, !hop_left by (auto; lia). cbn [uA uB]. ring.
  Qed.
  Lemma Hubbard_0 (U mu : R) : Hubbard U mu 0 = UB. Proof. reflexivity. Qed.
  Lemma no_site (J U mu : R) : Heisenberg_impl J 0 = UB /\ Hubbard U mu 0 = UB.
  Proof. split; reflexivity. Qed.
  Theorem Heisenberg_spec quarter (J : R) n : (forall x : R, (ro + ro + (ro + ro)) * quarter x = x) -> 0 < n ->
    exists Ws, Heisenberg quarter J n = Ok Ws /\ length Ws = n /\ mpo_shape 2 1 Ws 1 /\
      ceq 2 n (cscale (ro + ro + (ro + ro)) (mpo_op Ws)) (cscale (- J) (csum (fun i => sigma_sigma R n i) (seq 0 (n - 1)))).
  Proof.
    intros Hq Hn. destruct (Heisenberg_impl_spec (quarter (- J)) n Hn) as (Ws & E & HL & HS & HC).
    exists Ws. split; [exact E|]. split; [exact HL|]. split; [exact HS|].
    intros ps qs Hp Hq'. unfold cscale at 1. rewrite HC by auto. unfold cscale. rewrite rmul_assoc, Hq. reflexivity.
  Qed.
End Ex.
