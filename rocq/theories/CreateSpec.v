(** What the profile written by create_gcov has to say about a binary and the
    samples taken of it, in terms of the functions of the binary, of the sampled
    ranges, addresses and branches and of the inline stacks of instructions. *)
From Verif Require Import Base SymbolModel SymbolSpec ProfileSpec SampleModel SampleSpec AddrProps AfdoSpec.

(** A function symbol of the binary: name, address, size. *)
Notation func := (name * Z * Z)%type (only parsing).
Definition f_name (f : func) : name := fst (fst f).
Definition f_lo (f : func) : Z := snd (fst f).
Definition f_hi (f : func) : Z := snd (fst f) + snd f.
Definition in_func (f : func) (v : Z) : bool := (f_lo f <=? v) && (v <? f_hi f).
Definition func_addrs (f : func) : list Z := map (fun i => f_lo f + Z.of_nat i) (seq 0 (Z.to_nat (snd f))).

Section Spec.
  Variable segs : list seg.              (* the executable segments *)
  Variable funcs : list func.
  Variable orig : name -> name.          (* name without suffixes *)
  Variable base : Z -> Z.
  Variable stack_of : Z -> list sinfo.   (* inline stack of an instruction, innermost first *)
  Variable dup : sinfo -> Z.             (* duplication factor of a location *)
  Variable use_lbr : bool.
  Variable s : samples.
  Variable threshold : Z.

  (** the address of the byte at file offset [a] *)
  Definition address_of (a : Z) : Z :=
    match find (fun g => (sg_off g <=? a) && (a <? sg_off g + sg_size g)) segs with
    | Some g => sg_vaddr g + (a - sg_off g)
    | None => 0
    end.

  (** samples of a function: ranges that begin in it, address samples in it *)
  Definition func_ranges (f : func) : list ((Z * Z) * Z) :=
    filter (fun e => in_func f (fst (fst e)))
      (map (fun e => ((address_of (fst (fst e)), address_of (snd (fst e))), snd e)) (sa_range s)).
  Definition func_hits (f : func) : list (Z * Z) :=
    filter (fun e => in_func f (fst e)) (map (fun e => (address_of (fst e), snd e)) (sa_addr s)).
  Definition sum_of {A} (g : A -> Z) (l : list A) : Z := fold_right (fun x acc => g x + acc) 0 l.

  (** how often the instruction at [a] was executed *)
  Definition executed (f : func) (a : Z) : Z :=
    if use_lbr
    then sum_of (fun e => if (fst (fst e) <=? a) && (a <=? snd (fst e)) then snd e else 0) (func_ranges f)
    else sum_of (fun e => if fst e =? a then snd e else 0) (func_hits f).
  Definition scaled (f : func) (a : Z) : Z :=
    match stack_of a with
    | [] => 0
    | leaf :: _ => (executed f a mod 2 ^ 64 * dup leaf) mod 2 ^ 64
    end.
  (** the most executed instruction of [f] at location [l] of inline path [q] *)
  Definition hottest (f : func) (q : path) (l : Z) : Z :=
    max_over (fun a => if located base stack_of a q l then scaled f a else 0) (func_addrs f).
  Definition func_total (f : func) : Z := sum_over (scaled f) (func_addrs f).
  (** executed bytes, or address samples where there are no ranges *)
  Definition func_samples (f : func) : Z :=
    match func_ranges f with
    | [] => sum_of snd (func_hits f)
    | rs => sum_of (fun e => snd e * (snd (fst e) - fst (fst e) + 1)) rs
    end.

  (** a function and its split parts *)
  Definition parts (n : name) : list func := filter (fun f => name_eqb (orig (f_name f)) n) funcs.
  Definition sampled (n : name) : Prop := threshold < signed64 (sum_of func_samples (parts n) mod 2 ^ 64).
  Definition in_profile (n : name) : Prop :=
    sampled n /\ threshold < signed64 (sum_of func_total (parts n) mod 2 ^ 64).
  Definition expected_count (n : name) (q : path) (l : Z) : Z :=
    sum_of (fun f => hottest f q l) (parts n) mod 2 ^ 64.

  (** branches into the entry of [n] from sampled functions *)
  Definition caller_counts (f : func) : bool :=
    (threshold <? signed64 (sum_of func_samples (parts (orig (f_name f))) mod 2 ^ 64)) &&
    negb (use_lbr && match func_ranges f with [] => true | _ => false end).
  Definition expected_entry (n : name) : Z :=
    sum_of (fun e =>
      if existsb (fun f => in_func f (address_of (fst (fst e))) && caller_counts f) funcs &&
         existsb (fun f => (f_lo f =? address_of (snd (fst e))) && name_eqb (orig (f_name f)) n) funcs
      then snd e else 0) (sa_branch s) mod 2 ^ 64.

  (** every sampled address is in an executable segment *)
  Definition in_segments (a : Z) : Prop :=
    exists g, In g segs /\ sg_off g <= a < sg_off g + sg_size g.
  Definition samples_in_segments : Prop :=
    (forall e, In e (sa_range s) -> in_segments (fst (fst e)) /\ in_segments (snd (fst e))) /\
    (forall e, In e (sa_addr s) -> in_segments (fst e)) /\
    (forall e, In e (sa_branch s) -> in_segments (fst (fst e)) /\ in_segments (snd (fst e))).

  (** the function symbols of a binary: no two with the same name, no overlap *)
  Definition funcs_ok : Prop :=
    NoDup (map f_name funcs) /\ NoDup (map f_lo funcs) /\
    (forall f, In f funcs -> 0 <= f_lo f /\ 0 < snd f /\ f_hi f < 2 ^ 64) /\
    (forall f g, In f funcs -> In g funcs -> f_lo f < f_lo g -> f_hi f <= f_lo g).

  (** names and lines that fit the file format (see C03, C04) *)
  Definition frame_fits (version : Z) (i : sinfo) : Prop :=
    name_fits version (si_func i) /\ plain (si_func i) /\
    (si_start i <> 0 -> si_line i <> 0 ->
       si_start i <= si_line i < si_start i + 2 ^ 16 /\
       0 <= base (si_disc i) < 2 ^ 16 /\ base (base (si_disc i)) = base (si_disc i)).
  Definition debug_info_fits (version : Z) : Prop :=
    (forall f a i, In f funcs -> In a (func_addrs f) -> In i (stack_of a) -> frame_fits version i) /\
    (forall f, In f funcs -> name_fits version (orig (f_name f)) /\ plain (orig (f_name f)) /\
       orig (orig (f_name f)) = orig (f_name f)).
End Spec.

(** a function is reported if it has more than this many samples: the given
    fraction of all samples, at least ten *)
Definition threshold_of (frac : Z -> Z) (s : samples) : Z :=
  Z.max 10 (frac (signed64 (weighted_total s mod 2 ^ 64))).
