(** How often instructions execute, from branch counts. *)
From Coq Require Import Sorted.
From Verif Require Import Base.

Fixpoint sum_if {A} (p : A -> bool) (w : A -> Z) (l : list A) : Z :=
  match l with [] => 0 | x :: l' => (if p x then w x else 0) + sum_if p w l' end.

(** The all-ones address stands for "outside the binary". *)
Definition inside (a : Z) : Prop := a <> 2 ^ 64 - 1.

(** How often an address is branched to, and how often a branch falls through. *)
Definition branched_to (taken : list ((Z * Z) * Z)) (a : Z) : Z :=
  sum_if (fun e => snd (fst e) =? a) snd taken.
Definition fell_through (nt : list (Z * Z)) (a : Z) : Z := sum_if (fun e => fst e =? a) snd nt.
Definition is_target (taken : list ((Z * Z) * Z)) (a : Z) : Prop := exists from c, In ((from, a), c) taken.

(** Executions of the i-th instruction from [a0] on: as often as it is branched
    to, plus as often as the instruction before it (if that executes at all)
    continues with it: its not-taken count for a branch, its executions for any
    other instruction. *)
Fixpoint executions (taken : list ((Z * Z) * Z)) (nt : list (Z * Z)) (cf : Z -> bool) (size a0 : Z) (i : nat) : Z :=
  branched_to taken (a0 + Z.of_nat i * size) +
  match i with
  | O => 0
  | S j => let before := executions taken nt cf size a0 j in
           let b := a0 + Z.of_nat j * size in
           if before =? 0 then 0 else if cf b then fell_through nt b else before
  end.

(** A range: first and last instruction, weight. *)
Definition r_first (r : Z * Z * Z) := fst (fst r).
Definition r_last (r : Z * Z * Z) := snd (fst r).
Definition r_weight (r : Z * Z * Z) := snd r.
Definition covers (r : Z * Z * Z) (a : Z) : bool := (r_first r <=? a) && (a <=? r_last r).

(** [m] holds the sums of the weights of [R] under the images of the ranges. *)
Definition holds_sums (off : Z -> Z) (m : list ((Z * Z) * Z)) (R : list (Z * Z * Z)) : Prop :=
  NoDup (map fst m) /\
  forall x y, (forall v, In ((x, y), v) m -> v = sum_if (fun r => (off (r_first r) =? x) && (off (r_last r) =? y)) r_weight R) /\
              (In (x, y) (map fst m) <-> exists r, In r R /\ off (r_first r) = x /\ off (r_last r) = y).

(** What can be converted: counts are not negative, source and target addresses
    are below 2^63 unless they are outside, not-taken branches are counted once,
    and all targets are instructions of a program of fixed-size instructions. *)
Definition good_counts (taken : list ((Z * Z) * Z)) (nt : list (Z * Z)) (size : Z) : Prop :=
  (forall from to c, In ((from, to), c) taken -> 0 <= c /\ (inside from -> 0 <= from < 2 ^ 63) /\ (inside to -> 0 <= to < 2 ^ 63 - 4096)) /\
  (forall a c, In (a, c) nt -> 0 <= c) /\ NoDup (map fst nt) /\
  0 < size /\ (size | 4096) /\
  (forall a b, is_target taken a -> is_target taken b -> inside a -> inside b -> (size | a - b)).

Definition lowest_target (taken : list ((Z * Z) * Z)) (a : Z) : Prop :=
  is_target taken a /\ inside a /\ forall b, is_target taken b -> inside b -> a <= b.
Definition highest_target (taken : list ((Z * Z) * Z)) (a : Z) : Prop :=
  is_target taken a /\ inside a /\ forall b, is_target taken b -> inside b -> b <= a.

(** The ranges do not overlap (they are in order), start and end with
    instructions from the lowest target on up to 4096 bytes behind the highest
    one, have a branch at most at their end and a target at most at their start. *)
Definition range_of_program (taken : list ((Z * Z) * Z)) (cf : Z -> bool) (size a0 last : Z) (r : Z * Z * Z) : Prop :=
  0 < r_weight r /\ a0 <= r_first r /\ r_first r <= r_last r /\ r_last r < last + 4096 /\
  (size | r_first r - a0) /\ (size | r_last r - a0) /\
  (forall a, (size | a - a0) -> r_first r <= a < r_last r -> cf a = false) /\
  (forall t, is_target taken t -> inside t -> r_first r < t <= r_last r -> False).
Definition program_ranges (taken : list ((Z * Z) * Z)) (cf : Z -> bool) (size a0 last : Z) (R : list (Z * Z * Z)) : Prop :=
  StronglySorted (fun r r' => r_last r < r_first r') R /\ Forall (range_of_program taken cf size a0 last) R.

(** The branches of the binary: both ends are inside. *)
Definition inside_branch (e : (Z * Z) * Z) : bool := negb (fst (fst e) =? 2 ^ 64 - 1) && negb (snd (fst e) =? 2 ^ 64 - 1).
