(** What prefetch hints promise: the file format, and the profile made of the
    hints. *)
From Verif Require Import Base SymbolModel SymbolSpec AddrModel PrefetchModel.

(** * The file *)
(** [c] is a digit of value [d] in base [b]. *)
Definition digit (b c d : Z) : Prop :=
  0 <= d < b /\ ((d < 10 /\ c = 48 + d) \/ (10 <= d /\ (c = 87 + d \/ c = 55 + d))).
(** The text [l] is a number. *)
Inductive number (b : Z) : list Z -> Z -> Prop :=
| num_one c d : digit b c d -> number b [c] d
| num_more l v c d : number b l v -> digit b c d -> number b (l ++ [c]) (b * v + d).
Definition white (c : Z) : Prop := c = 32 \/ 9 <= c <= 13.
(** A line: address in hexadecimal, signed delta, type, separated by commas;
    white space before it and after it. *)
Inductive line : list Z -> hint -> Prop :=
| line_intro before pre a sign d t after ta td va vd :
    Forall white before -> (pre = [] \/ pre = [48; 120]) -> number 16 ta va -> va < 2 ^ 64 ->
    (sign = [] /\ d = vd \/ sign = [45] /\ d = - vd) -> number 10 td vd -> - 2 ^ 63 <= d < 2 ^ 63 ->
    t <> [] -> Forall (fun c => ~ white c) t -> Forall white after -> a = va ->
    line (before ++ pre ++ ta ++ [44] ++ sign ++ td ++ [44] ++ t ++ after) (Hint a d t).
(** A file: lines, each but the last ended by white space. *)
Inductive lines : list Z -> list hint -> Prop :=
| ls_last s h : line s h -> lines s [h]
| ls_more s c r h hs : line (s ++ [c]) h -> white c -> lines r hs -> lines (s ++ [c] ++ r) (h :: hs).

(** * The profile *)
(** Decimal number of up to three digits. *)
Definition decimal (n : Z) : name :=
  if n <? 10 then [48 + n]
  else if n <? 100 then [48 + n / 10; 48 + n mod 10]
  else [48 + n / 100; 48 + n / 10 mod 10; 48 + n mod 10].
(** The hints, each with the number of earlier hints for its address. *)
Fixpoint ranked (earlier hs : list hint) : list (hint * Z) :=
  match hs with
  | [] => []
  | h :: hs' => (h, zlen (filter (fun e => h_address e =? h_address h) earlier)) :: ranked (earlier ++ [h]) hs'
  end.

Section Profile.
  Variable base : Z -> Z.
  Variable orig : name -> name.
  Variable symtab : list (Z * (name * Z)).
  Variable stack_of : Z -> list sinfo.

  (** The function an address belongs to. *)
  Definition home (a : Z) : option name :=
    match GetSymbolInfoByAddr symtab a with Some (n, _, _) => Some n | None => None end.
  Definition in_fn (n : name) (h : hint) : bool :=
    match home (h_address h) with Some n' => name_eqb n n' | None => false end.
  (** The call target a hint becomes: "__prefetch_" type "_" number. *)
  Definition target (r : hint * Z) : name :=
    orig ([95; 95; 112; 114; 101; 102; 101; 116; 99; 104; 95] ++ h_type (fst r) ++ [95] ++ decimal (snd r mod 256)).
  (** The instruction belongs to location [l] of the function inlined along [q]. *)
  Definition placed (a : Z) (q : path) (l : Z) : bool :=
    match stack_of a with
    | [] => false
    | leaf :: _ => path_eqb q (stack_path base false (rev (stack_of a))) && (l =? si_offset base leaf)
    end.
  (** ... or to something inlined into it. *)
  Definition under (a : Z) (q : path) : bool :=
    match stack_of a with [] => false | st => is_prefix q (stack_path base false (rev st)) end.

  (** The hint says something about target [t] at location [l] of the function
      inlined along [q] in function [n]. *)
  Definition about (n : name) (q : path) (l : Z) (t : name) (r : hint * Z) : bool :=
    in_fn n (fst r) && placed (h_address (fst r)) q l && name_eqb t (target r).
  (** The delta of the last hint with a property, as an unsigned number. *)
  Definition last_delta (P : hint * Z -> bool) (rs : list (hint * Z)) : Z :=
    match find P (rev rs) with Some r => h_delta (fst r) mod 2 ^ 64 | None => 0 end.
  (** The functions that have a hint. *)
  Definition hinted (n : name) (hs : list hint) : bool := existsb (in_fn n) hs.
  (** The first hint of the function. *)
  Definition first_hint (n : name) (hs : list hint) : option hint := find (in_fn n) hs.
  (** The bogus sample count that keeps the function in the profile. *)
  Definition bogus (n : name) (hs : list hint) (q : path) : Z :=
    match first_hint n hs with Some h => if under (h_address h) q then 1 else 0 | None => 0 end.
End Profile.

(** Sum over a list. *)
Definition summed {A} (g : A -> Z) (l : list A) : Z := fold_right (fun x acc => g x + acc) 0 l.
