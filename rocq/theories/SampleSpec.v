(** Specification vocabulary for C18 and C19: samples as finite maps, seen only
    through lookups. *)
From Verif Require Import Base SampleModel.

Definition range_at (s : samples) (k : Z * Z) : option Z := aget pair_eqb k (sa_range s).
Definition addr_at (s : samples) (k : Z) : option Z := aget Z.eqb k (sa_addr s).
Definition branch_at (s : samples) (k : Z * Z) : option Z := aget pair_eqb k (sa_branch s).

(** the same three maps *)
Definition same_samples (s t : samples) : Prop :=
  (forall k, range_at s k = range_at t k) /\ (forall k, addr_at s k = addr_at t k) /\
  (forall k, branch_at s k = branch_at t k).

Definition u64_range (x : Z) : Prop := 0 <= x < 2 ^ 64.

(** every key occurs once, keys and counts are 64-bit words *)
Definition samples_ok (s : samples) : Prop :=
  NoDup (map fst (sa_range s)) /\ NoDup (map fst (sa_addr s)) /\ NoDup (map fst (sa_branch s)) /\
  Forall (fun e => u64_range (fst (fst e)) /\ u64_range (snd (fst e)) /\ u64_range (snd e)) (sa_range s) /\
  Forall (fun e => u64_range (fst e) /\ u64_range (snd e)) (sa_addr s) /\
  Forall (fun e => u64_range (fst (fst e)) /\ u64_range (snd (fst e)) /\ u64_range (snd e)) (sa_branch s).

(** pointwise sum of two optional counts, modulo 2^64 *)
Definition add_counts (a b : option Z) : option Z :=
  match a, b with
  | None, None => None
  | Some x, None | None, Some x => Some x
  | Some x, Some y => Some ((x + y) mod 2 ^ 64)
  end.

Definition pointwise_sum (s t r : samples) : Prop :=
  (forall k, range_at r k = add_counts (range_at s k) (range_at t k)) /\
  (forall k, addr_at r k = add_counts (addr_at s k) (addr_at t k)) /\
  (forall k, branch_at r k = add_counts (branch_at s k) (branch_at t k)).

(** the number of sampled bytes: a range [b, e] counted c times contributes
    c * (e - b + 1); samples without ranges count their addresses *)
Definition weighted_total (s : samples) : Z :=
  match sa_range s with
  | [] => fold_right (fun e a => snd e + a) 0 (sa_addr s)
  | rs => fold_right (fun e a => snd e * (snd (fst e) - fst (fst e) + 1) + a) 0 rs
  end.
