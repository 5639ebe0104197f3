(** Random configurations of given total quantity. Model only.
    The random source is an arbitrary stream of numbers; a uniform distribution on 0 .. x-1 returns the next number modulo x. *)
From Verif Require Import Base Quantity FlatMap Ring Index Dense BTensor.
Set Implicit Arguments.

Section Rand.
  Context {G : abgroup}.

  (** sources/MPT.cpp:321-335: a random starting point, and the product of its quantities. A site without quantity gives a
      distribution on 0 .. -1. *)
  Definition rand_start (src : nat -> nat) (phys : list (list G)) : result (list nat * G) :=
    rfold (fun '(out, sum) cv =>
      if length cv =? 0 then UB
      else let r := src (length out) mod length cv in
           do a <- rnth cv r ; Ok (out ++ [r], qop G sum a)) phys ([], qe G).
  (** sources/MPT.cpp:346-362: the best replacement at one site, [sum] without the quantity of the site. *)
  Definition rand_pick (constraint sum : G) (cv : list G) (o : nat) (dist : Z) : nat * Z :=
    fold_left (fun '(o, dist) '(j, v) => let nd := qdist2 G (qop G sum v) constraint in if (nd <? dist)%Z then (j, nd) else (o, dist))
      (combine (seq 0 (length cv)) cv) (o, dist).
  (** sources/MPT.cpp:340-366: one pass over the sites; it stops when the distance is zero. *)
  Fixpoint rand_pass (constraint : G) (phys : list (list G)) (out : list nat) (sum : G) (dist : Z) : result (list nat * G * Z) :=
    match phys, out with
    | cv :: phys', o :: out' =>
        if (dist =? 0)%Z then Ok (out, sum, dist)
        else
          do a <- rnth cv o ;
          let sum1 := qop G sum (qinv G a) in
          let '(o1, dist1) := rand_pick constraint sum1 cv o dist in
          do a1 <- rnth cv o1 ;
          do r <- rand_pass constraint phys' out' (qop G sum1 a1) dist1 ;
          let '(out2, sum2, dist2) := r in Ok (o1 :: out2, sum2, dist2)
    | _, _ => Ok (out, sum, dist)
    end.
  (** sources/MPT.cpp:338-370 *)
  Fixpoint rand_passes (n_pass : nat) (constraint : G) (phys : list (list G)) (out : list nat) (sum : G) (dist : Z) : result (list nat) :=
    match n_pass with
    | 0 => Throw InvalidArgument
    | S n => do r <- rand_pass constraint phys out sum dist ;
             let '(out', sum', dist') := r in
             if (dist' =? 0)%Z then Ok out' else rand_passes n constraint phys out' sum' dist'
    end.
  (** sources/MPT.cpp:312-371 [generate_random_string] *)
  Definition generate_random_string (src : nat -> nat) (phys : list (list G)) (constraint : G) (n_pass : nat) : result (list nat) :=
    if n_pass =? 0 then Throw InvalidArgument
    else do s <- rand_start src phys ;
         let '(out, sum) := s in rand_passes n_pass constraint phys out sum (qdist2 G sum constraint).
End Rand.
