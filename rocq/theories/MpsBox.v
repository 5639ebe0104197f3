(** Model of the containers [MPS] and [bMPS]: tensors of any type, with the position of the orthogonality centre. Model only.
    A program is a list of operations on a list of variables; constructors append a variable. Not modelled: the sharing of storage
    between copied tensors, reserve/capacity, iterators kept across operations (an iterator is a position), what is left behind
    by an operation that throws (a run stops there). The longest possible vector is taken to have 2^63 - 1 elements; beyond, [std::length_error] (a logic error). *)
From Verif Require Import Base BTensor Dmrg MoveOc.
Set Implicit Arguments.
Local Open Scope Z_scope.

(** [size_t] arithmetic *)
Definition u64 (z : Z) : Z := z mod 2 ^ 64.

Section Box.
  Variable T : Type.
  (** include/MPT.h:89-92, 309 and 522: the vector, and the centre; [None] is a [size_t] without a value (include/property.h:39,
      [property() = default]). *)
  Record chain := mkC { sites : list T; centre : option Z }.

  (** [block]: which of the two classes. [dflt]: the tensor made by the default constructor. [chk], [one]: [check_ranks], [check_one].
      [conv]: [tensor.to(...)]. [pull], [push]: the turns of [move_oc]. *)
  Variable block : bool.
  Variable dflt : T.
  Variable chk : list T -> result bool.
  Variable one : T -> bool.
  Variable conv : T -> result T.
  Variable pull push : T -> T -> result (T * T).

  (** [std::vector]: storage for a list of that length *)
  Definition alloc (l : list T) : result (list T) := if Z.of_nat (length l) <? 2 ^ 63 then Ok l else Throw LogicError.

  (** The constructors. [CList]: from a vector, an initializer list or an [MPT]. *)
  Inductive ctor := CEmpty | CSize (n : nat) | CSizeOc (n : nat) (oc : Z) | CList (l : list T) (oc : Z) | CFill (n : nat) (t : T) (oc : Z) | CRange (l : list T).
  (** include/MPT.h:316-368, 529-582. The arguments [oc] are converted to [size_t]. *)
  Definition guard (n : nat) (oc : Z) : bool := (Z.of_nat n <=? oc) && negb (oc =? 0).
  Definition build (c : ctor) : result chain :=
    match c with
    | CEmpty => Ok (mkC [] (Some 0))
    | CSize n => do l <- alloc (repeat dflt n) ; Ok (mkC l (Some 0))
    | CSizeOc n oc => do l <- alloc (repeat dflt n) ; Ok (mkC l (Some (if block then Z.min (u64 oc) (u64 (Z.of_nat n - 1)) else u64 oc)))
    | CList l oc =>
        do ok <- chk l ;
        if negb ok then Throw InvalidArgument else if guard (length l) (u64 oc) then Throw InvalidArgument else Ok (mkC l (Some (u64 oc)))
    | CFill n t oc =>
        do l <- alloc (repeat t n) ;
        if guard n (u64 oc) then Throw InvalidArgument else if negb (one t) then Throw InvalidArgument else Ok (mkC l (Some (u64 oc)))
    | CRange l => Ok (mkC l (if block then None else Some 0))
    end.
  (** Reading a centre without a value is undefined behaviour. *)
  Definition rcentre (c : chain) : result Z := match centre c with Some k => Ok k | None => UB end.
  (** include/MPT.h:319, 532 *)
  Definition copy (c : chain) : result chain := do k <- rcentre c ; Ok (mkC (sites c) (Some k)).
  (** include/MPT.h:320, 533 with 116-119: the new object, and what is left: the vector is emptied, the centre is not touched. *)
  Definition move (c : chain) : result (chain * chain) := do k <- rcentre c ; Ok (mkC (sites c) (Some k), mkC [] (Some k)).
  (** include/MPT.h:372-377, 586-591 *)
  Definition swap (a b : chain) : result (chain * chain) := do k <- rcentre a ; do l <- rcentre b ; Ok (mkC (sites b) (Some l), mkC (sites a) (Some k)).
  (** include/MPT.h:202-255 [to]: [empty_copy] (401, 615) is the constructor with size and centre. *)
  Definition to (c : chain) : result chain :=
    do k <- rcentre c ;
    do e <- build (CSizeOc (length (sites c)) k) ;
    do l <- rmapM conv (sites c) ;
    Ok (mkC l (centre e)).
  (** include/MPT.h:258-268 [to_]: inside [vector_lift], [swap] is the one that exchanges the tensors only. *)
  Definition to_ (c : chain) : result chain := do d <- to c ; Ok (mkC (sites d) (centre c)).
  (** sources/MPT.cpp:27-111; the dense version reads the tensor at the centre first. *)
  Definition move_centre (c : chain) (i : Z) : result chain :=
    if negb ((0 <=? i) && (i <? Z.of_nat (length (sites c)))) then Throw InvalidArgument
    else
      do k <- rcentre c ;
      do _ <- (if block then Ok tt else do _ <- zget (sites c) k ; Ok tt) ;
      do (l, k') <- move_to pull push (sites c) k i ;
      Ok (mkC l (Some k')).

  (** include/MPT.h:172-199, the functions of [std::vector], on the list of tensors; a position after the end, or [pop_back] on an
      empty vector, is undefined behaviour. *)
  Definition v_insert (p : nat) (m l : list T) : result (list T) := if Nat.leb p (length l) then Ok (firstn p l ++ m ++ skipn p l) else UB.
  Definition v_erase (a b : nat) (l : list T) : result (list T) := if Nat.leb a b && Nat.leb b (length l) then Ok (firstn a l ++ skipn b l) else UB.
  Definition v_pop (l : list T) : result (list T) := match l with [] => UB | _ => Ok (removelast l) end.
  Definition v_resize (n : nat) (t : T) (l : list T) : list T := firstn n l ++ repeat t (n - length l)%nat.

  Inductive op :=
  | New (c : ctor) | Copy (i : nat) | Move (i : nat) | Assign (i j : nat) | MoveAssign (i j : nat) | Swap (i j : nat) | To (i : nat) | ToIn (i : nat)
  | Clear (i : nat) | Insert (i p : nat) (m : list T) | Erase (i a b : nat) | Push (i : nat) (t : T) | Pop (i : nat) | Resize (i n : nat) (t : T)
  | Put (i p : nat) (t : T) | MoveOc (i : nat) (k : Z).

  Definition store := list chain.
  Definition on (st : store) (i : nat) (f : chain -> result chain) : result store := do c <- rnth st i ; do c' <- f c ; Ok (upd st i c').
  Definition vec (f : list T -> result (list T)) (c : chain) : result chain := do l <- f (sites c) ; do l <- alloc l ; Ok (mkC l (centre c)).
  (** [swap(a, b)] of two variables, which may be the same. *)
  Definition swap_at (st : store) (i j : nat) : result store :=
    do a <- rnth st i ; do b <- rnth st j ; do (a', b') <- swap a b ; Ok (upd (upd st i a') j b').
  (** One operation. [a = b] and [a = std::move(b)] build the argument of [operator=] (include/MPT.h:379-383, 593-597), exchange it
      with [a] and destroy it. *)
  Definition step (st : store) (o : op) : result store :=
    match o with
    | New c => do x <- build c ; Ok (st ++ [x])
    | Copy i => do c <- rnth st i ; do x <- copy c ; Ok (st ++ [x])
    | Move i => do c <- rnth st i ; do (x, rest) <- move c ; Ok (upd st i rest ++ [x])
    | Assign i j => do b <- rnth st j ; do x <- copy b ; do a <- rnth st i ; do (a', _) <- swap a x ; Ok (upd st i a')
    | MoveAssign i j =>
        do b <- rnth st j ; do (x, rest) <- move b ; let st := upd st j rest in
        do a <- rnth st i ; do (a', _) <- swap a x ; Ok (upd st i a')
    | Swap i j => swap_at st i j
    | To i => do c <- rnth st i ; do x <- to c ; Ok (st ++ [x])
    | ToIn i => on st i to_
    | Clear i => on st i (vec (fun _ => Ok []))
    | Insert i p m => on st i (vec (v_insert p m))
    | Erase i a b => on st i (vec (v_erase a b))
    | Push i t => on st i (vec (fun l => Ok (l ++ [t])))
    | Pop i => on st i (vec v_pop)
    | Resize i n t => on st i (vec (fun l => Ok (v_resize n t l)))
    | Put i p t => on st i (vec (fun l => if Nat.ltb p (length l) then Ok (firstn p l ++ t :: skipn (S p) l) else UB))
    | MoveOc i k => on st i (fun c => move_centre c k)
    end.
  Definition run (ops : list op) (st : store) : result store := rfold step ops st.
End Box.
