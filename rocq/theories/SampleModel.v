(** Model of the aggregated samples and of their text file format:
    sample_reader.h 28-36, 116-150 and sample_reader.cc 106-258.

    A std::map is an association list without duplicate keys; the iteration
    order of std::map (which the text file shows) is not modelled, the order of
    the list stands for it. File contents are lists of bytes. fopen/fclose
    always succeed in the model. *)
From Verif Require Import Base.

Definition pair_eqb (a b : Z * Z) : bool := (fst a =? fst b) && (snd a =? snd b).

(** sample_reader.h 28-33: the three count maps *)
Record samples := {
  sa_range : list ((Z * Z) * Z);
  sa_addr : list (Z * Z);
  sa_branch : list ((Z * Z) * Z) }.
Definition samples0 : samples := {| sa_range := []; sa_addr := []; sa_branch := [] |}.

Section Count.
  Context {K : Type} (eqb : K -> K -> bool).
  (** [map[k] += c] on uint64_t values, sample_reader.cc 184, 201, 218, 222-230 *)
  Definition madd (m : list (K * Z)) (e : K * Z) : list (K * Z) :=
    aset eqb (fst e) (u64 (match aget eqb (fst e) m with Some o => o | None => 0 end + snd e)) m.
  Definition madd_all (l m : list (K * Z)) : list (K * Z) := fold_left madd l m.
End Count.

(** sample_reader.cc 221-231 Merge *)
Definition Merge (s r : samples) : samples :=
  {| sa_range := madd_all pair_eqb (sa_range r) (sa_range s);
     sa_addr := madd_all Z.eqb (sa_addr r) (sa_addr s);
     sa_branch := madd_all pair_eqb (sa_branch r) (sa_branch s) |}.

Definition sum_u64 (l : list Z) : Z := fold_left (fun a c => u64 (a + c)) l 0.

(** sample_reader.cc 127-140 GetTotalSampleCount *)
Definition GetTotalSampleCount (s : samples) : Z :=
  match sa_range s with
  | [] => sum_u64 (map snd (sa_addr s))
  | _ => sum_u64 (map snd (sa_range s))
  end.

(** sample_reader.cc 142-157 ReadAndSetTotalCount, the total_count_ set after a
    successful Read *)
Definition TotalCount (s : samples) : Z :=
  match sa_range s with
  | [] => sum_u64 (map snd (sa_addr s))
  | _ => sum_u64 (map (fun e => u64 (snd e * (1 + snd (fst e) - fst (fst e)))) (sa_range s))
  end.

(** sample_reader.cc 106-118 GetSampledAddresses (as a list without order) *)
Definition GetSampledAddresses (s : samples) : list Z :=
  match sa_range s with
  | [] => map fst (sa_addr s)
  | _ => map (fun e => fst (fst e)) (sa_range s)
  end.

(** sample_reader.cc 120-126 GetSampleCountOrZero *)
Definition GetSampleCountOrZero (s : samples) (a : Z) : Z :=
  match aget Z.eqb a (sa_addr s) with Some c => c | None => 0 end.

(** ** Printing *)

(** the character of a digit below 16 *)
Definition digit_char (d : Z) : Z := if d <? 10 then 48 + d else 87 + d.

(** %x / %u of absl::FPrintF and %zu of fprintf: digits of [n] in base [b], at
    most [fuel] of them (64 suffice for uint64_t) *)
Fixpoint print_base (fuel : nat) (b n : Z) : list Z :=
  match fuel with
  | O => []
  | S f => if n <? b then [digit_char n] else print_base f b (n / b) ++ [digit_char (n mod b)]
  end.
Definition print_hex : Z -> list Z := print_base 64 16.
Definition print_dec : Z -> list Z := print_base 64 10.

Definition c_nl : Z := 10.
Definition c_minus : Z := 45.
Definition c_colon : Z := 58.
Definition c_gt : Z := 62.

(** sample_reader.cc 240-242 *)
Definition write_range (e : (Z * Z) * Z) : list Z :=
  print_hex (fst (fst e)) ++ [c_minus] ++ print_hex (snd (fst e)) ++ [c_colon]
  ++ print_dec (snd e) ++ [c_nl].
(** sample_reader.cc 244-246 *)
Definition write_addr (e : Z * Z) : list Z :=
  print_hex (fst e) ++ [c_colon] ++ print_dec (snd e) ++ [c_nl].
(** sample_reader.cc 248-250 *)
Definition write_branch (e : (Z * Z) * Z) : list Z :=
  print_hex (fst (fst e)) ++ [c_minus; c_gt] ++ print_hex (snd (fst e)) ++ [c_colon]
  ++ print_dec (snd e) ++ [c_nl].

(** sample_reader.cc 233-258 Write *)
Definition Write (s : samples) (aux_info : list Z) : list Z :=
  print_dec (zlen (sa_range s)) ++ [c_nl] ++ flat_map write_range (sa_range s)
  ++ print_dec (zlen (sa_addr s)) ++ [c_nl] ++ flat_map write_addr (sa_addr s)
  ++ print_dec (zlen (sa_branch s)) ++ [c_nl] ++ flat_map write_branch (sa_branch s)
  ++ aux_info.

(** ** Scanning: fscanf *)
Definition is_space (c : Z) : bool := (c =? 32) || ((9 <=? c) && (c <=? 13)).
(** a white-space directive *)
Fixpoint skip_ws (s : list Z) : list Z :=
  match s with c :: s' => if is_space c then skip_ws s' else s | [] => [] end.

Definition digit_val (b c : Z) : option Z :=
  let v := if (48 <=? c) && (c <=? 57) then Some (c - 48)
           else if (97 <=? c) && (c <=? 102) then Some (c - 87)
           else if (65 <=? c) && (c <=? 70) then Some (c - 55) else None in
  match v with Some d => if d <? b then Some d else None | None => None end.

(** the longest prefix of digits, [acc] the value so far, [any] whether there
    was a digit yet *)
Fixpoint scan_digits (b : Z) (acc : Z) (any : bool) (s : list Z) : option (Z * list Z) :=
  match s with
  | c :: s' =>
      match digit_val b c with
      | Some d => scan_digits b (acc * b + d) true s'
      | None => if any then Some (acc, s) else None
      end
  | [] => if any then Some (acc, []) else None
  end.

(** %SCNx64 (base 16) and %SCNu64 (base 10) with strtoull's conversion: leading
    white space, optional sign, optional 0x, saturation (the standard leaves
    the saturated case undefined, glibc saturates) *)
Definition scan_num (b : Z) (s : list Z) : option (Z * list Z) :=
  let s := skip_ws s in
  let '(neg, s) := match s with
                   | 45 :: s' => (true, s') | 43 :: s' => (false, s') | _ => (false, s) end in
  let s := if b =? 16 then
             match s with 48 :: 120 :: s' => s' | 48 :: 88 :: s' => s' | _ => s end else s in
  match scan_digits b 0 false s with
  | None => None
  | Some (v, s) =>
      Some ((if w64 <=? v then w64 - 1 else if neg then u64 (- v) else v), s)
  end.

(** a literal character of the format *)
Definition scan_lit (c : Z) (s : list Z) : option (list Z) :=
  match s with x :: s' => if x =? c then Some s' else None | [] => None end.

Definition optbind {A B} (x : option A) (f : A -> option B) : option B :=
  match x with Some a => f a | None => None end.
Notation "'let?' ' p ':=' a 'in' b" := (optbind a (fun p => b))
  (at level 200, p strict pattern, a at level 100, b at level 200).
Notation "'let?' x ':=' a 'in' b" := (optbind a (fun x => b))
  (at level 200, x name, a at level 100, b at level 200).

(** "%lu\n", sample_reader.cc 169 *)
Definition scan_count (s : list Z) : option (Z * list Z) :=
  let? '(n, s) := scan_num 10 s in Some (n, skip_ws s).
(** "%lx-%lx:%lu\n", sample_reader.cc 177-178 *)
Definition scan_range (s : list Z) : option (((Z * Z) * Z) * list Z) :=
  let? '(from, s) := scan_num 16 s in
  let? s := scan_lit c_minus s in
  let? '(to, s) := scan_num 16 s in
  let? s := scan_lit c_colon s in
  let? '(c, s) := scan_num 10 s in
  Some (((from, to), c), skip_ws s).
(** "%lx:%lu\n", sample_reader.cc 196 *)
Definition scan_addr (s : list Z) : option ((Z * Z) * list Z) :=
  let? '(a, s) := scan_num 16 s in
  let? s := scan_lit c_colon s in
  let? '(c, s) := scan_num 10 s in
  Some ((a, c), skip_ws s).
(** "%lx->%lx:%lu\n", sample_reader.cc 212-213 *)
Definition scan_branch (s : list Z) : option (((Z * Z) * Z) * list Z) :=
  let? '(from, s) := scan_num 16 s in
  let? s := scan_lit c_minus s in
  let? s := scan_lit c_gt s in
  let? '(to, s) := scan_num 16 s in
  let? s := scan_lit c_colon s in
  let? '(c, s) := scan_num 10 s in
  Some (((from, to), c), skip_ws s).

Section Read.
  Context {K : Type} (eqb : K -> K -> bool) (scan : list Z -> option ((K * Z) * list Z)).
  (** The loops of sample_reader.cc 174-186, 193-203, 210-220: [i] is the int
      loop variable, whose increment past INT_MAX is undefined; the loop ends
      when [i] reaches [num]. None: fscanf failed. *)
  Fixpoint read_records (n : nat) (i : Z) (m : list (K * Z)) (s : list Z)
    : outcome (list (K * Z) * option (list Z)) :=
    match n with
    | O => Ok (m, Some s)
    | S n' =>
        match scan s with
        | None => Ok (m, None)
        | Some (e, s') =>
            if i =? 2 ^ 31 - 1 then UB
            else read_records n' (i + 1) (madd eqb m e) s'
        end
    end.
  Definition read_section (m : list (K * Z)) (s : list Z)
    : outcome (list (K * Z) * option (list Z)) :=
    match scan_count s with
    | None => Ok (m, None)
    | Some (num, s') => read_records (Z.to_nat num) 0 m s'
    end.
End Read.

(** sample_reader.cc 160-219 Append on an open file with contents [f]; the
    result is the new samples and the returned bool. *)
Definition Append (f : list Z) (s : samples) : outcome (samples * bool) :=
  let! '(r, f1) := read_section pair_eqb scan_range (sa_range s) f in
  let s1 := {| sa_range := r; sa_addr := sa_addr s; sa_branch := sa_branch s |} in
  match f1 with
  | None => Ok (s1, false)
  | Some f1 =>
      let! '(a, f2) := read_section Z.eqb scan_addr (sa_addr s) f1 in
      let s2 := {| sa_range := r; sa_addr := a; sa_branch := sa_branch s |} in
      match f2 with
      | None => Ok (s2, false)
      | Some f2 =>
          let! '(b, f3) := read_section pair_eqb scan_branch (sa_branch s) f2 in
          Ok ({| sa_range := r; sa_addr := a; sa_branch := b |},
              match f3 with None => false | Some _ => true end)
      end
  end.
