(** Truncation of a block decomposition by a bound on its values; independent of the functions of the code. *)
From Verif Require Import Base Quantity QuantityProofs Ring SpecFlatMap Index SpecIndex Dense BTensor SpecBTensor.
Set Implicit Arguments.

Section V.
  Context {R : ring}.
  Variable gtb : R -> R -> bool.
  (** [gtb] is the "greater than" of a total order. *)
  Record total_order : Prop := {
    gt_irrefl : forall x, gtb x x = false;
    gt_trans : forall x y z, gtb x y = true -> gtb y z = true -> gtb x z = true;
    gt_total : forall x y, gtb x y = false -> gtb y x = false -> x = y
  }.
  (** All entries of a tensor, in row-major order. *)
  Definition entries (x : dense R) : list R := map (dv x) (idxs (dsh x)).
  Definition descending (l : list R) : Prop := forall i j, i < j -> j < length l -> gtb (nth j l rz) (nth i l rz) = false.
  (** Number of values above a bound. *)
  Definition above (v : R) (l : list R) : nat := length (filter (fun x => gtb x v) l).
End V.

Section B.
  Context {G : abgroup} {R : ring}.
  Notation t := (btensor G R).
  Notation entry := (list nat * dense R)%type.
  Variable gtb : R -> R -> bool.
  (** The last section of a block. *)
  Definition section_of (e : entry) : nat := last (fst e) 0.
  (** All values of a block tensor. *)
  Definition all_values (d : t) : list R := concat (map (fun e => entries (snd e)) (b_blocks d)).
  (** How many values of section [b] are above [v]; none when no block is stored. *)
  Definition kept (d : t) (v : R) (b : nat) : option nat := option_map (fun x => above gtb v (entries x)) (assoc leqb [b] (b_blocks d)).
  Definition emptied (d : t) (v : R) (b : nat) : Prop := kept d v b = Some 0.
  (** Size of section [b] after the truncation: an emptied section and one without block keep their size. *)
  Definition new_size (d : t) (v : R) (b n : nat) : nat := match kept d v b with Some (S k) => S k | _ => n end.
  Definition new_leg (d : t) (v : R) (l : list nat) : list nat := map (fun b => new_size d v b (nth b l 0)) (seq 0 (length l)).
  (** A block reduced in its last dimension to the size of its section. *)
  Definition cut_block (d : t) (v : R) (e : entry) : entry :=
    match kept d v (section_of e) with Some (S k) => (fst e, mkD (removelast (dsh (snd e)) ++ [S k]) (dv (snd e))) | _ => e end.
  (** [T'] is [T] with its last dimension truncated. Blocks of emptied sections may or may not be present. *)
  Definition truncated (d : t) (v : R) (T T' : t) : Prop :=
    b_rule T' = b_rule T /\ b_rank T' = b_rank T /\ b_sbd T' = b_sbd T /\ qlegs T' = qlegs T /\
    legs T' = removelast (legs T) ++ [new_leg d v (last (legs T) [])] /\
    (forall e', In e' (b_blocks T') -> exists e, In e (b_blocks T) /\ e' = cut_block d v e) /\
    (forall e, In e (b_blocks T) -> ~ emptied d v (section_of e) -> In (cut_block d v e) (b_blocks T')) /\
    NoDup (map fst (b_blocks T')).
  (** No emptied section holds the last block of [U] along with another one. *)
  Definition tidy (d : t) (v : R) (U : t) : Prop := forall b, emptied d v b ->
    (forall l e, b_blocks U = l ++ [e] -> section_of e <> b) \/
    (forall e e', In e (b_blocks U) -> In e' (b_blocks U) -> section_of e = b -> section_of e' = b -> e = e').
  (** The product U diag(d) V^H, all values not above [v] replaced by zero. *)
  Definition restricted_product (K : nat) (DU Dd DV : dense R) (v : R) (i j : list nat) : R :=
    sumf R (fun c => if gtb (dv Dd [c]) v then rmul (rmul (dv DU (i ++ [c])) (dv Dd [c])) (rconj (dv DV (j ++ [c]))) else rz) (seq 0 K).
End B.
