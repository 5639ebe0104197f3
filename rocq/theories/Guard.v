(** Model of [dmrg_gradient_guard], sources/dmrg.cpp:67-90, and of the conversions [to] and [to_] of chains it uses, include/MPT.h:201-216 and 257-268 and, for
    block tensors, include/blockTensor/btensor.h:739-748. Model only. Element types are the values of any type [K], converted by an arbitrary function. Simplifications:
    devices, layouts and memory formats are not modelled; the run between the constructor and the destructor of the guard is an arbitrary function.
    Of torch: [Tensor::to] converts to the element type of the options, if they have one, keeps the flag of gradients, and throws if the options ask for gradients
    ("Operators taking TensorOptions cannot take a TensorOptions with options.requires_grad set as true"); [Tensor::options] has the element type, not the flag. *)
From Verif Require Import Base BTensor.
Set Implicit Arguments.

Section G.
  Variables K V : Type.
  (** [conv k k' v]: the values [v] of type [k] as values of type [k'] *)
  Variable conv : K -> K -> V -> V.
  (** The global default element type *)
  Variable deft : K.

  (** torch::TensorOptions *)
  Record topt : Type := mkO { o_ty : option K; o_grad : option bool }.
  (** torch::Tensor *)
  Record ten : Type := mkT { t_ty : K; t_grad : bool; t_val : V }.
  Definition t_options (x : ten) : topt := mkO (Some (t_ty x)) None.
  Definition t_to (o : topt) (x : ten) : result ten :=
    match o_grad o with
    | Some true => Throw TorchError
    | _ => Ok (match o_ty o with Some k => mkT k (t_grad x) (conv (t_ty x) k (t_val x)) | None => x end)
    end.

  (** btensor: blocks and [_options]; what else there is (sections, quantities, rule) is in [b_shape]. *)
  Variable S : Type.
  Record bten : Type := mkBt { b_shape : S; b_opt : K; b_bl : list (list nat * ten) }.
  (** include/blockTensor/btensor.h:795 *)
  Definition b_options (x : bten) : topt := mkO (Some (b_opt x)) None.
  (** include/blockTensor/btensor.h:739-748 *)
  Definition b_to (o : topt) (x : bten) : result bten :=
    do l <- rmapM (fun b => do t <- t_to o (snd b) ; Ok (fst b, t)) (b_bl x) ;
    Ok (mkBt (b_shape x) (match l with b :: _ => t_ty (snd b) | [] => match o_ty o with Some k => k | None => deft end end) l).
End G.
Arguments mkO {K}. Arguments mkT {K V}. Arguments mkBt {K V S}.

Section Run.
  Variables K T E : Type.
  Variable to : topt K -> T -> result T.
  Variable options : T -> topt K.
  (** [dmrg_impl] and what comes before it: the energy or an exception, and the chain as it is left in either case. The operators are const. *)
  Variable run : list T -> list T -> list T * result E.

  (** include/MPT.h:201-216, 257-268: all tensors are converted before any is replaced *)
  Definition to_ (o : topt K) (l : list T) : result (list T) := rmapM (to o) l.
  (** What the caller sees: the operators, the chain, the result. *)
  Record seen : Type := mkS { s_hamil : list T; s_state : list T; s_res : result E }.
  (** sources/dmrg.cpp:79-84, 92-107, 85-89. [UB]: the first tensor of an empty chain is read. If the constructor throws no destructor runs; a throw in the destructor
      would end the program ([UB] here). *)
  Definition guarded (hamil_gradient state_gradient : bool) (hamil state : list T) : result seen :=
    match hamil, state with
    | h :: _, s :: _ =>
        match to_ (mkO None (Some hamil_gradient)) hamil with
        | Throw e => Ok (mkS hamil state (Throw e))
        | UB => UB
        | Ok h1 =>
            match to_ (mkO None (Some state_gradient)) state with
            | Throw e => Ok (mkS h1 state (Throw e))
            | UB => UB
            | Ok s1 =>
                let (s2, r) := run h1 s1 in
                match to_ (options h) h1, to_ (options s) s2 with
                | Ok h3, Ok s3 => Ok (mkS h3 s3 r)
                | _, _ => UB
                end
            end
        end
    | _, _ => UB
    end.
End Run.
