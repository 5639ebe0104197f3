(** Model of [find_selection_rule], sources/btensor.cpp:2592-2644. *)
From Verif Require Import Base Quantity Ring Index SpecIndex Dense BTensor.
Set Implicit Arguments.

Section SelRule.
  Variable G : abgroup.
  Variable R : ring.
  (** [big x] is [abs(x) > cutoff]. *)
  Variable big : R -> bool.

  (** sources/btensor.cpp:2600-2615, the lambda [quantitiesi]: parallel scan of sizes and quantities; dereferencing the
      end iterator is undefined behaviour. *)
  Fixpoint scan_quantity (sizes : list nat) (qs : list G) (e : nat) : result G :=
    match sizes with
    | s :: sizes' => if s <=? e then scan_quantity sizes' (tl qs) (e - s) else rnth qs 0
    | [] => UB
    end.
  Definition quantitiesi (shape : btensor G R) (e dim : nat) : result G :=
    scan_quantity (prange (b_sbd shape) (b_ss shape) dim) (prange (b_sbd shape) (b_cv shape) dim) e.

  (** [tens.matmul(state)] with [state] the [i]-th unit vector. *)
  Definition unit_vec (i : nat) : nat -> R := fun c => if c =? i then ro else rz.
  Definition matvec (t : dense R) (v : nat -> R) (j : nat) : R :=
    sumf R (fun c => rmul (dv t [j; c]) (v c)) (seq 0 (nth 1 (dsh t) 0)).

  (** The accumulator is ([first_hit], [out_sel_rule]); loop over columns [i], then rows [j]. *)
  Definition find_selection_rule (t : dense R) (shape : btensor G R) : result G :=
    if negb (length (dsh t) =? 2) then Throw InvalidArgument
    else if negb (b_rank shape =? 2) then Throw InvalidArgument
    else
      do s <- rfold (fun st i =>
        rfold (fun '(first, q) j =>
          if big (matvec t (unit_vec i) j) then
            do qj <- quantitiesi shape j 0 ;
            do qi <- quantitiesi shape i 1 ;
            if first : bool then Ok (false, qop G qj qi)
            else if qeqb G q (qop G qj qi) then Ok (false, q)
            else Throw LogicError
          else Ok (first, q)) (seq 0 (nth 0 (dsh t) 0)) st)
        (seq 0 (nth 1 (dsh t) 0)) (true, qe G) ;
      Ok (snd s).
End SelRule.
