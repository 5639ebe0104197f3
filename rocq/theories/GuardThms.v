(** The guard of a run leaves everything alone exactly when all element types are that of the first tensor. *)
From Verif Require Import Base BTensor Guard SpecGuard.
Set Implicit Arguments.

Section Gen.
  Variables K T E : Type.
  Variable to : topt K -> T -> result T.
  Variable options : T -> topt K.
  Variable run : list T -> list T -> list T * result E.
  Lemma rmapM_ok (f : T -> result T) (g : T -> T) l : (forall x, In x l -> f x = Ok (g x)) -> rmapM f l = Ok (map g l).
  Proof. induction l as [|a l IH]; cbn; intros H; [reflexivity|]. rewrite H by auto. cbn. rewrite IH by auto. reflexivity. Qed.
End Gen.

Section D.
  Variables K V E : Type.
  Variable conv : K -> K -> V -> V.
  Notation ten := (ten K V).
  Variable run : list ten -> list ten -> list ten * result E.
  Hypothesis conv_id : forall k v, conv k k v = v.
  Definition to_type (k : K) (x : ten) : ten := mkT k (t_grad x) (conv (t_ty x) k (t_val x)).
  Lemma to_plain g (l : list ten) : g = false -> to_ (t_to conv) (mkO None (Some g)) l = Ok l.
  Proof. intros ->. unfold to_. rewrite (@rmapM_ok ten _ (fun x => x)) by reflexivity. rewrite map_id. reflexivity. Qed.
  Lemma to_opts (h : ten) l : to_ (t_to conv) (t_options h) l = Ok (map (to_type (t_ty h)) l).
  Proof. unfold to_. apply rmapM_ok. reflexivity. Qed.
  Lemma to_grad o (l : list ten) : o_grad o = Some true -> l <> [] -> to_ (t_to conv) o l = Throw TorchError.
  Proof. intros H. destruct l as [|x l]; [congruence|]. intros _. unfold to_. cbn. unfold t_to. rewrite H. reflexivity. Qed.

  Lemma guarded_dense h hs s ss :
    guarded (t_to conv) (@t_options K V) run false false (h :: hs) (s :: ss) =
    Ok (mkS (map (to_type (t_ty h)) (h :: hs)) (map (to_type (t_ty s)) (fst (run (h :: hs) (s :: ss)))) (snd (run (h :: hs) (s :: ss)))).
  Proof. unfold guarded. rewrite !to_plain by reflexivity. destruct (run (h :: hs) (s :: ss)) as (s2, r). rewrite !to_opts. reflexivity. Qed.
  Lemma map_same k (l : list ten) : (forall x, In x l -> t_ty x = k) -> map (to_type k) l = l.
  Proof. intros H. rewrite <- (map_id l) at 2. apply map_ext_in. intros x Hx. unfold to_type. rewrite (H x Hx), conv_id. rewrite <- (H x Hx). destruct x; reflexivity. Qed.
  Lemma map_same_inv k (l : list ten) : map (to_type k) l = l -> forall x, In x l -> t_ty x = k.
  Proof. induction l as [|a l IH]; cbn; intros H x; [intros []|]. injection H as H1 H2. intros [<-|Hx]; [rewrite <- H1; reflexivity|apply IH; assumption]. Qed.

  Lemma dense_exact hamil state : hamil <> [] -> state <> [] -> exists a, guarded (t_to conv) (@t_options K V) run false false hamil state = Ok a /\
    s_res a = snd (run hamil state) /\ (s_hamil a = hamil <-> one_type (@t_ty K V) hamil) /\ (s_state a = fst (run hamil state) <-> forall x y, In x (fst (run hamil state)) -> hd_error state = Some y -> t_ty x = t_ty y).
  Proof.
    destruct hamil as [|h hs]; [congruence|]. destruct state as [|s ss]; [congruence|]. intros _ _. rewrite guarded_dense. eexists. split; [reflexivity|]. cbn [s_res s_hamil s_state]. split; [reflexivity|]. split; split.
    - intros H x y Hx Hy. pose proof (@map_same_inv _ _ H) as Q. rewrite (Q x Hx), (Q y Hy). reflexivity.
    - intros H. apply map_same. intros x Hx. apply H; [exact Hx|left; reflexivity].
    - intros H x y Hx Hy. injection Hy as <-. exact (@map_same_inv _ _ H x Hx).
    - intros H. apply map_same. intros x Hx. apply H; [exact Hx|reflexivity].
  Qed.
  Lemma dense_gradient hg sg hamil state : hamil <> [] -> state <> [] -> hg || sg = true -> guarded (t_to conv) (@t_options K V) run hg sg hamil state = Ok (mkS hamil state (Throw TorchError)).
  Proof.
    intros Hh Hs. destruct hamil as [|h hs]; [congruence|]. destruct state as [|s ss]; [congruence|]. unfold guarded. destruct hg; [intros _; rewrite to_grad by auto; reflexivity|]. cbn [orb]. intros ->.
    rewrite to_plain by reflexivity. rewrite to_grad by auto. reflexivity.
  Qed.
End D.

Section B.
  Variables K V S E : Type.
  Variable conv : K -> K -> V -> V.
  Variable deft : K.
  Notation bten := (bten K V S).
  Variable run : list bten -> list bten -> list bten * result E.
  Hypothesis conv_id : forall k v, conv k k v = v.
  Definition bto_type (k : K) (x : bten) : bten := mkBt (b_shape x) k (map (fun b => (fst b, to_type conv k (snd b))) (b_bl x)).
  Lemma b_to_opts (h x : bten) : b_to conv deft (b_options h) x = Ok (bto_type (b_opt h) x).
  Proof.
    unfold b_to. assert (Q : rmapM (fun b => do t <- t_to conv (b_options h) (snd b) ; Ok (fst b, t)) (b_bl x) = Ok (map (fun b => (fst b, to_type conv (b_opt h) (snd b))) (b_bl x))).
    { induction (b_bl x) as [|b l IH]; cbn; [reflexivity|]. cbn in IH. rewrite IH. reflexivity. }
    rewrite Q. cbn [rbind]. unfold bto_type. f_equal. f_equal. destruct (b_bl x); reflexivity.
  Qed.
  Lemma b_to_plain (x : bten) : b_wf x -> b_bl x <> [] -> b_to conv deft (mkO None (Some false)) x = Ok x.
  Proof.
    intros WF NE. unfold b_to. assert (Q : rmapM (fun b => do t <- t_to conv (mkO None (Some false)) (snd b) ; Ok (fst b, t)) (b_bl x) = Ok (b_bl x)).
    { clear. induction (b_bl x) as [|[k t] l IH]; cbn; [reflexivity|]. cbn in IH. rewrite IH. reflexivity. }
    rewrite Q. cbn [rbind]. destruct x as [sh op bl]. cbn in *. destruct bl as [|b l]; [congruence|]. rewrite (WF b) by (left; reflexivity). reflexivity.
  Qed.
  Lemma bto_same k x : b_wf x -> b_opt x = k -> bto_type k x = x.
  Proof.
    intros WF <-. unfold bto_type. destruct x as [sh op bl]. cbn in *. f_equal. rewrite <- (map_id bl) at 2. apply map_ext_in. intros [i t] Hb. cbn. unfold to_type. pose proof (WF _ Hb) as Q. cbn in Q. unfold b_opt in *. rewrite Q, conv_id. rewrite <- Q. destruct t; reflexivity.
  Qed.
  Lemma block_exact hamil state : hamil <> [] -> state <> [] -> Forall (@b_wf K V S) hamil -> Forall (fun x => b_bl x <> []) hamil -> Forall (@b_wf K V S) state -> Forall (fun x => b_bl x <> []) state ->
    Forall (@b_wf K V S) (fst (run hamil state)) ->
    exists a, guarded (@b_to K V conv deft S) (@b_options K V S) run false false hamil state = Ok a /\
    s_res a = snd (run hamil state) /\ (s_hamil a = hamil <-> one_type (@b_opt K V S) hamil) /\ (s_state a = fst (run hamil state) <-> forall x y, In x (fst (run hamil state)) -> hd_error state = Some y -> b_opt x = b_opt y).
  Proof.
    intros Hh Hs W1 N1 W2 N2 W3. assert (P : forall l, Forall (@b_wf K V S) l -> Forall (fun x => b_bl x <> []) l -> to_ (@b_to K V conv deft S) (mkO None (Some false)) l = Ok l).
    { intros l Hl Hn. unfold to_. rewrite (@rmapM_ok bten _ (fun x => x)); [rewrite map_id; reflexivity|]. intros x Hx. apply b_to_plain; [eapply Forall_forall in Hl|eapply Forall_forall in Hn]; eauto. }
    assert (O : forall h l, to_ (@b_to K V conv deft S) (@b_options K V S h) l = Ok (map (bto_type (b_opt h)) l)) by (intros; apply rmapM_ok; intros; apply b_to_opts).
    assert (I : forall k l, Forall (@b_wf K V S) l -> (map (bto_type k) l = l <-> forall x, In x l -> b_opt x = k)).
    { intros k l Hl. split.
      - clear. induction l as [|a l IH]; cbn; intros H x; [intros []|]. injection H as H1 H2. intros [<-|Hx]; [rewrite <- H1; reflexivity|apply IH; assumption].
      - intros H. rewrite <- (map_id l) at 2. apply map_ext_in. intros x Hx. apply bto_same; [eapply Forall_forall in Hl; eauto|auto]. }
    unfold guarded. rewrite (P hamil), (P state) by assumption. destruct (run hamil state) as (s2, r) eqn:ER. cbn [fst snd] in *.
    destruct hamil as [|h hs]; [congruence|]. destruct state as [|s ss]; [congruence|]. rewrite !O. eexists. split; [reflexivity|]. cbn [s_res s_hamil s_state]. split; [reflexivity|]. rewrite (I _ _ W1), (I _ _ W3). split; split.
    - intros H x y Hx Hy. rewrite (H x Hx), (H y Hy). reflexivity.
    - intros H x Hx. apply H; [exact Hx|left; reflexivity].
    - intros H x y Hx Hy. injection Hy as <-. exact (H x Hx).
    - intros H x Hx. apply H; [exact Hx|reflexivity].
  Qed.
  Lemma block_gradient hg sg hamil state : hamil <> [] -> state <> [] -> Forall (@b_wf K V S) hamil -> Forall (fun x => b_bl x <> []) hamil -> Forall (fun x => b_bl x <> []) state -> hg || sg = true ->
    guarded (@b_to K V conv deft S) (@b_options K V S) run hg sg hamil state = Ok (mkS hamil state (Throw TorchError)).
  Proof.
    intros Hh Hs W1 N1 N2 HG. assert (T : forall l, l <> [] -> Forall (fun x : bten => b_bl x <> []) l -> to_ (@b_to K V conv deft S) (mkO None (Some true)) l = Throw TorchError).
    { intros l Hl Hn. destruct Hn as [|x l Hx _]; [congruence|]. unfold to_. cbn. unfold b_to. destruct (b_bl x) as [|b bl]; [congruence|]. reflexivity. }
    destruct hamil as [|h hs]; [congruence|]. destruct state as [|s ss]; [congruence|]. unfold guarded. destruct hg; [rewrite T by auto; reflexivity|]. cbn [orb] in HG. subst sg.
    unfold to_ at 1. rewrite (@rmapM_ok bten _ (fun x => x)); [|intros x Hx; apply b_to_plain; [eapply Forall_forall in W1|eapply Forall_forall in N1]; eauto]. rewrite map_id, T by auto. reflexivity.
  Qed.
End B.
