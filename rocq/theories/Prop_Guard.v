(** C89: gradients and element types around a run of DMRG (sources/dmrg.cpp 67-107; see Guard.v). *)
From Verif Require Import Base BTensor Guard SpecGuard GuardThms.

(** Full claim: [dmrg] leaves the operators as they were and the chain as the run left it, and returns what the run returns; with [hamil_gradient] or [state_gradient] the run is traced,
    and without them it is not. The guard that sets the tracing reads the options of the first tensor only.
    Exact, without gradients: the result is that of the run; the operators are as they were if and only if they have one element type, and the chain is as the run left it if and only if all its
    tensors then have the element type of the first tensor of the initial chain. *)
Theorem C89_dense_partial : forall (K V E : Type) (conv : K -> K -> V -> V) (run : list (ten K V) -> list (ten K V) -> list (ten K V) * result E), (forall k v, conv k k v = v) ->
  forall hamil state, hamil <> [] -> state <> [] -> exists a, guarded (t_to conv) (@t_options K V) run false false hamil state = Ok a /\
    s_res a = snd (run hamil state) /\ (s_hamil a = hamil <-> one_type (@t_ty K V) hamil) /\
    (s_state a = fst (run hamil state) <-> forall x y, In x (fst (run hamil state)) -> hd_error state = Some y -> t_ty x = t_ty y).
Proof. exact dense_exact. Qed.
Print Assumptions C89_dense_partial.

(** The same for block tensors that store a block each. *)
Theorem C89_block_partial : forall (K V S E : Type) (conv : K -> K -> V -> V) (deft : K) (run : list (bten K V S) -> list (bten K V S) -> list (bten K V S) * result E), (forall k v, conv k k v = v) ->
  forall hamil state, hamil <> [] -> state <> [] -> Forall (@b_wf K V S) hamil -> Forall (fun x => b_bl x <> []) hamil -> Forall (@b_wf K V S) state -> Forall (fun x => b_bl x <> []) state ->
  Forall (@b_wf K V S) (fst (run hamil state)) -> exists a, guarded (@b_to K V conv deft S) (@b_options K V S) run false false hamil state = Ok a /\
    s_res a = snd (run hamil state) /\ (s_hamil a = hamil <-> one_type (@b_opt K V S) hamil) /\
    (s_state a = fst (run hamil state) <-> forall x y, In x (fst (run hamil state)) -> hd_error state = Some y -> b_opt x = b_opt y).
Proof. exact block_exact. Qed.
Print Assumptions C89_block_partial.

(** With gradients nothing is run, whatever the operators and the chain: an exception is thrown. *)
Theorem C89_gradient_refuted : forall (K V E : Type) (conv : K -> K -> V -> V) (run : list (ten K V) -> list (ten K V) -> list (ten K V) * result E) hamil_gradient state_gradient hamil state,
  hamil <> [] -> state <> [] -> hamil_gradient || state_gradient = true ->
  guarded (t_to conv) (@t_options K V) run hamil_gradient state_gradient hamil state = Ok (mkS hamil state (Throw TorchError)).
Proof. exact dense_gradient. Qed.
Print Assumptions C89_gradient_refuted.
Theorem C89_block_gradient_refuted : forall (K V S E : Type) (conv : K -> K -> V -> V) (deft : K) (run : list (bten K V S) -> list (bten K V S) -> list (bten K V S) * result E) hamil_gradient state_gradient hamil state,
  hamil <> [] -> state <> [] -> Forall (@b_wf K V S) hamil -> Forall (fun x => b_bl x <> []) hamil -> Forall (fun x => b_bl x <> []) state -> hamil_gradient || state_gradient = true ->
  guarded (@b_to K V conv deft S) (@b_options K V S) run hamil_gradient state_gradient hamil state = Ok (mkS hamil state (Throw TorchError)).
Proof. exact block_gradient. Qed.
Print Assumptions C89_block_gradient_refuted.

(** Numbers for the examples: complex ones (type [true]), of which the conversion to a real type keeps the real part. *)
Definition ex_conv (k k' : bool) (v : Z * Z) : Z * Z := if k && negb k' then (fst v, 0%Z) else v.
Definition ex_real (g : bool) : ten bool (Z * Z) := mkT false g (1, 0)%Z.
Definition ex_imag : ten bool (Z * Z) := mkT true false (0, 1)%Z.
(** A run that throws, as torch does when it multiplies tensors of different types, or returns whether an operator is traced. *)
Definition ex_throw (h s : list (ten bool (Z * Z))) : list (ten bool (Z * Z)) * result bool := (s, Throw TorchError).
Definition ex_traced (h s : list (ten bool (Z * Z))) : list (ten bool (Z * Z)) * result bool := (s, Ok (existsb (@t_grad _ _) h)).

(** The second operator is imaginary and the first is real: after the run, even one that throws, the second operator is zero. *)
Theorem C89_types_refuted : guarded (t_to ex_conv) (@t_options _ _) ex_throw false false [ex_real false; ex_imag] [ex_real false] = Ok (mkS [ex_real false; mkT false false (0, 0)%Z] [ex_real false] (Throw TorchError)).
Proof. reflexivity. Qed.
Print Assumptions C89_types_refuted.
(** Operators that have gradients are traced although [hamil_gradient] is off. *)
Theorem C89_tracing_refuted : guarded (t_to ex_conv) (@t_options _ _) ex_traced false false [ex_real true; ex_real true] [ex_real false] = Ok (mkS [ex_real true; ex_real true] [ex_real false] (Ok true)).
Proof. reflexivity. Qed.
Print Assumptions C89_tracing_refuted.

(** Two real operators and a chain of two real tensors, which the run exchanges: the hypotheses hold and nothing is changed by the guard. *)
Example C89_ex : let run := fun (h s : list (ten bool (Z * Z))) => (rev s, @Ok nat (length h)) in let state := [ex_real false; mkT false false (2, 0)%Z] in
  (forall k v, ex_conv k k v = v) /\ one_type (@t_ty _ _) [ex_real false; ex_real true] /\
  guarded (t_to ex_conv) (@t_options _ _) run false false [ex_real false; ex_real true] state = Ok (mkS [ex_real false; ex_real true] (rev state) (Ok 2)).
Proof.
  split; [intros [] v; reflexivity|]. split; [|reflexivity]. intros x y [<-|[<-|[]]] [<-|[<-|[]]]; reflexivity.
Qed.
Print Assumptions C89_ex.
