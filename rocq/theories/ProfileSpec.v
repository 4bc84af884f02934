(** Specification vocabulary for C21 and C48. *)
From Verif Require Import Base SymbolModel SymbolSpec ProfileModel.

(** Sum of the counts of the sampled ranges that begin in the function (at or
    after [start]) and contain the address [a]. *)
Definition covering (start : Z) (rs : list ((Z * Z) * Z)) (a : Z) : Z :=
  fold_right (fun e acc =>
    (if (start <=? fst (fst e)) && (fst (fst e) <=? a) && (a <=? snd (fst e)) then snd e else 0) + acc)
    0 rs.

Definition addr_samples (l : list (Z * Z)) (a : Z) : Z :=
  match aget Z.eqb a l with Some c => c | None => 0 end.

(** execution count of the instruction at [a] *)
Definition exec_count (use_lbr : bool) (p : pmaps) (a : Z) : Z :=
  if use_lbr then (covering (pm_start p) (pm_range p) a) mod 2 ^ 64 else addr_samples (pm_addr p) a.

(** the addresses of a function *)
Definition fn_addresses (p : pmaps) : list Z :=
  map (fun i => pm_start p + Z.of_nat i) (seq 0 (Z.to_nat (pm_end p - pm_start p))).

Section S.
  Variable base : Z -> Z.
  Variable stack_of : Z -> list sinfo.
  Variable dup : sinfo -> Z.
  Variable use_lbr : bool.

  (** the instruction at [a] belongs to location [l] of the function inlined
      along [q] *)
  Definition located (a : Z) (q : path) (l : Z) : bool :=
    match stack_of a with
    | [] => false
    | leaf :: rest =>
        negb (si_invalid leaf) && path_eqb q (stack_path base true (rev (leaf :: rest)))
        && (l =? si_offset base leaf)
    end.
  (** the instruction at [a] belongs to the function inlined along [q] or to
      something inlined into it *)
  Definition inside (a : Z) (q : path) : bool :=
    match stack_of a with
    | [] => false
    | st => is_prefix q (stack_path base true (rev st))
    end.
  (** its execution count times the duplication factor of its location *)
  Definition weight (p : pmaps) (a : Z) : Z :=
    match stack_of a with
    | [] => 0
    | leaf :: _ => (exec_count use_lbr p a * dup leaf) mod 2 ^ 64
    end.
  Definition sum_over (f : Z -> Z) (l : list Z) : Z := fold_right (fun a acc => f a + acc) 0 l.
End S.

(** Sum of the counts of the entries whose key satisfies [P]. *)
Definition wsum {K} (P : K -> bool) (l : list (K * Z)) : Z :=
  fold_right (fun e acc => (if P (fst e) then snd e else 0) + acc) 0 l.
Definition max_over (f : Z -> Z) (l : list Z) : Z := fold_right (fun a acc => Z.max (f a) acc) 0 l.

Section Agg.
  Variable symtab : list (Z * (name * Z)).
  Variable segs : list (Z * Z).
  (** the static address of a file offset (0 if there is none: then the program aborts) *)
  Definition static_addr (a : Z) : Z := match AddrModel.get_static_vaddr segs a with Ok v => v | _ => 0 end.
  (** static address [v] lies in the function named [n] *)
  Definition in_function (n : name) (v : Z) : bool :=
    match AddrModel.GetSymbolInfoByAddr symtab v with Some (n', _, _) => name_eqb n n' | None => false end.
End Agg.

(** what ComputeProfile collected for the function [n] *)
Definition profile_of (ps : profs) (n : name) : pmaps :=
  match aget name_eqb n ps with Some p => p | None => new_pmaps 0 0 end.

(** A collected per-function profile as the C++ types allow it. *)
Definition pmaps_ok (p : pmaps) : Prop :=
  0 <= pm_start p /\ pm_end p < 2 ^ 64 /\
  NoDup (akeys (pm_addr p)) /\ Forall (fun e => is_u64 (snd e)) (pm_addr p) /\
  Forall (fun e => is_u64 (fst e)) (pm_addr p) /\
  Forall (fun e => is_u64 (fst (fst e))) (pm_range p) /\
  Forall (fun e => is_u64 (snd e) /\ is_u64 (fst (fst e))) (pm_branch p).

(** every function of the profile holds 64-bit counts *)
Definition profile_ok (m : smap) : Prop := forall x s, sm_find m x = Some s -> sym_ok s.

Section BranchSpec.
  Variable base : Z -> Z.
  Variable orig : name -> name.
  Variable symtab : list (Z * (name * Z)).
  Variable stack_of : Z -> list sinfo.
  (** the branch leaves from an instruction of the function *)
  Definition from_inside (p : pmaps) (b : Z * Z) : bool := (pm_start p <=? fst b) && (fst b <? pm_end p).
  (** the branch goes to the entry of the function object named [x] *)
  Definition enters (m : smap) (x : name) (b : Z * Z) : bool :=
    match AddrModel.GetSymbolNameByStartAddr symtab (snd b) with
    | Some callee => same_object m x callee
    | None => false
    end.
  (** the branch is a call at location [l] of path [q] to a function whose
      original name is [t] and that is in the profile *)
  Definition call_at (m : smap) (q : path) (l : Z) (t : name) (b : Z * Z) : bool :=
    match AddrModel.GetSymbolNameByStartAddr symtab (snd b) with
    | Some callee => match sm_find m callee with Some _ => true | None => false end
                     && located base stack_of (fst b) q l && name_eqb t (orig callee)
    | None => false
    end.
End BranchSpec.

Section Parts.
  Variable base : Z -> Z.
  Variable orig : name -> name.
  Variable stack_of : Z -> list sinfo.
  Variable dup : sinfo -> Z.
  Variable use_lbr : bool.
  (** the function and its split parts: what shares the original name [n] *)
  Definition parts_of (ps : profs) (n : name) : profs :=
    filter (fun e => name_eqb (orig (fst e)) n) ps.
  (** their samples: executed bytes of the ranges, or the address samples if
      there is no range *)
  Definition part_samples (p : pmaps) : Z :=
    match pm_range p with
    | [] => fold_right (fun e acc => snd e + acc) 0 (pm_addr p)
    | _ => fold_right (fun e acc => snd e * (snd (fst e) - fst (fst e) + 1) + acc) 0 (pm_range p)
    end.
  Definition all_samples (ps : profs) (n : name) : Z :=
    fold_right (fun e acc => part_samples (snd e) + acc) 0 (parts_of ps n).
  (** what one part contributes to the total of inline path [q] *)
  Definition part_total (p : pmaps) (q : path) : Z :=
    if use_lbr && (match pm_range p with [] => true | _ => false end) then 0
    else sum_over (fun a => if inside base stack_of a q then weight stack_of dup use_lbr p a else 0) (fn_addresses p).
End Parts.
