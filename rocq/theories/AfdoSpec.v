(** Specification vocabulary for C04-C06: which profiles an AutoFDO file can
    represent, and what reading one into a profile means. *)
From Verif Require Import Base GcovModel GcovSpec SymbolModel SymbolSpec SrcOffsetModel AfdoModel.

(** A name that can stand in the string table: no NUL byte, short enough for the
    reader's block (see C01), and not one of the names GCC spells differently. *)
Definition name_fits (version : Z) (n : name) : Prop :=
  Forall (fun b => 0 < b < 256) n /\
  (if 2 <=? version then zlen n + 1 < 16384 else 4 * ((zlen n + 4) / 4) < 16384).
(** "…D4Ev", "…C4Ev", "…C4EPKc", "…C4EPKcRKS2_" *)
Definition special_suffixes : list name :=
  [[68; 52; 69; 118]; [67; 52; 69; 118]; [67; 52; 69; 80; 75; 99];
   [67; 52; 69; 80; 75; 99; 82; 75; 83; 50; 95]].
Definition plain (n : name) : Prop := forall pre suf, In suf special_suffixes -> n <> pre ++ suf.

(** A location whose line offset and discriminator fit in 16 bits each (and are
    left alone by the discriminator flag of the reading process). *)
Definition loc_fits (base : Z -> Z) (l : Z) : Prop :=
  exists line disc, 0 <= line < 2 ^ 16 /\ 0 <= disc < 2 ^ 16 /\ base disc = disc /\
    l = GenerateOffset line disc.

(** A profile that fits: all names, all locations. [orig] is the reader's
    name canonicalisation of indirect call targets. *)
Inductive fits (version : Z) (base : Z -> Z) (orig : name -> name) : symbol -> Prop :=
| fits_intro h t ts pos calls :
    is_u64 h -> is_u64 ts -> NoDup (akeys pos) -> NoDup (akeys calls) ->
    (forall l i, In (l, i) pos -> loc_fits base l /\ is_u64 (p_count i) /\ targets_ok (p_targets i) /\
       forall n c, In (n, c) (p_targets i) -> name_fits version n /\ plain n /\ orig n = n) ->
    (forall l n c, In ((l, n), c) calls ->
       loc_fits base l /\ name_fits version n /\ plain n /\ fits version base orig c) ->
    fits version base orig (Sym h t ts pos calls).

(** Sum of all counts of a function and of everything inlined into it. *)
Fixpoint counts_below (s : symbol) : Z :=
  match s with
  | Sym _ _ _ pos cs =>
      fold_right (fun li a => p_count (snd li) + a) 0 pos
      + fold_right (fun kc a => counts_below (snd kc) + a) 0 cs
  end.
Definition counts_below_at (s : symbol) (q : path) : Z :=
  match node_at s q with Some n => counts_below n | None => 0 end.

(** [s'] is what a profile [old] becomes when the written function [s] is read
    into it: counts and entry count are added, targets are overwritten, totals
    grow by the counts, and exactly the inlined callsites with some location in
    or below them come into being. *)
Definition read_into (old s s' : symbol) : Prop :=
  forall q l t,
    (has_node s' q = true <->
       has_node old q = true \/ exists r l', has_pos s (q ++ r) l' = true) /\
    total_at s' q = (total_at old q + counts_below_at s q) mod 2 ^ 64 /\
    head_at s' q = (match q with [] => (head_at old [] + s_head s) mod 2 ^ 64 | _ => head_at old q end) /\
    has_pos s' q l = has_pos old q l || has_pos s q l /\
    count_at s' q l = (count_at old q l + count_at s q l) mod 2 ^ 64 /\
    has_target s' q l t = has_target old q l t || has_target s q l t /\
    target_at s' q l t = (if has_target s q l t then target_at s q l t else target_at old q l t).

(** The same function profile as far as a file can tell: locations, counts,
    targets and entry count of the function; the inlined callsites that have
    some location; totals recomputed from the counts. *)
Definition same_in_file (s s' : symbol) : Prop :=
  forall q l t,
    (has_node s' q = true <-> q = [] \/ exists r l', has_pos s (q ++ r) l' = true) /\
    total_at s' q = counts_below_at s q mod 2 ^ 64 /\
    head_at s' [] = s_head s /\
    has_pos s' q l = has_pos s q l /\
    count_at s' q l = count_at s q l /\
    has_target s' q l t = has_target s q l t /\
    target_at s' q l t = target_at s q l t.

(** A symbol map as the code keeps it: every name denotes its own function. *)
Definition unshared (m : smap) : Prop :=
  (forall n i, aget name_eqb n (sm_names m) = Some i -> (i < length (sm_heap m))%nat) /\
  (forall a b i, aget name_eqb a (sm_names m) = Some i -> aget name_eqb b (sm_names m) = Some i -> a = b).
Definition empty_map : smap := SMap [] [].
Definition find_or_empty (m : smap) (n : name) : symbol :=
  match sm_find m n with Some s => s | None => sym0 end.

(** A function is written when its total, taken as a signed number, exceeds the
    threshold. *)
Definition signed64 (x : Z) : Z := if x <? 2 ^ 63 then x else x - 2 ^ 64.
Definition emitted (threshold : Z) (s : symbol) : Prop := threshold < signed64 (s_total s).


(** What else the file carries must fit, too: file names, 32- and 64-bit numbers,
    exactly 128 working set buckets. *)
Definition summary_fits (s : summary) : Prop :=
  is_u64 (su_total s) /\ is_u64 (su_max s) /\ is_u64 (su_max_fn s) /\ is_u64 (su_num s) /\ is_u64 (su_fns s) /\
  Forall (fun '(c, m, n) => 0 <= c < 2 ^ 32 /\ is_u64 m /\ is_u64 n) (su_detail s).
Definition extras_fit (v : Z) (x : extras) : Prop :=
  Forall (name_fits v) (ex_files x) /\ summary_fits (ex_summary x) /\
  length (ex_ws x) = 128%nat /\ Forall (fun '(n, c) => 0 <= n < 2 ^ 32 /\ is_u64 c) (ex_ws x).

(** ** C05, C06: the function section *)

(** Index [i] of the name table stands for [n]. *)
Definition resolves (names : list name) (i : Z) (n : name) : Prop :=
  0 <= i < zlen names /\ nth_error names (Z.to_nat i) = Some n.

(** How one step of the traversal appears in the file. *)
Definition target_encodes (names : list name) (t : name * Z) (vs : list gval) : Prop :=
  exists i, resolves names i (fst t) /\ vs = [VWord 7; VCounter i; VCounter (snd t)].
Definition pos_encodes (names : list name) (p : Z * pinfo) (vs : list gval) : Prop :=
  exists tv, Forall2 (target_encodes names) (p_targets (snd p)) tv /\
    vs = VWord (GenerateCompressedOffset (fst p)) :: VWord (zlen (p_targets (snd p)))
         :: VCounter (p_count (snd p)) :: concat tv.
Inductive encodes (version : Z) (names : list name) : event -> list gval -> Prop :=
| enc_top n s i : resolves names i n -> i <> 0 ->
    encodes version names (ETop n s)
      (VCounter (s_head s) :: (if 3 <=? version then [VCounter (s_ts s)] else []) ++ [VWord i])
| enc_call l n i : resolves names i n -> i <> 0 ->
    encodes version names (ECall (l, n)) [VWord (GenerateCompressedOffset l); VWord i]
| enc_node s pv : Forall2 (pos_encodes names) (s_pos s) pv ->
    encodes version names (ENode s) (VWord (zlen (s_pos s)) :: VWord (zlen (s_calls s)) :: concat pv).

(** The functions and inlined callees of a profile all have a name. *)
Fixpoint callees_named (s : symbol) : Prop :=
  match s with
  | Sym _ _ _ _ cs => (fix go l := match l with
      | [] => True
      | (k, c) :: l' => snd k <> [] /\ callees_named c /\ go l'
      end) cs
  end.
(** The names one step of the traversal refers to. *)
Definition mentions (e : event) (n : name) : Prop :=
  match e with
  | ETop n' _ => n = n'
  | ECall (_, n') => n = n'
  | ENode s => exists l i c, In (l, i) (s_pos s) /\ In (n, c) (p_targets i)
  end.
