(** Model of prefetch hints: profile_creator.cc ReadPrefetchHints and
    ConvertPrefetchHints, symbol_map.cc EnsureEntryInFuncForSymbol.

    Simplifications: the inline stack of an address is a parameter (C61, C63),
    as are the symbols (C17, C65) and the base discriminator; log messages are
    left out; scanf's conversion of numbers that do not fit is glibc's
    (saturation), as in SampleModel. *)
From Verif Require Import Base SymbolModel ElideModel AddrModel SampleModel.

(** profile_creator.cc:48-52 PrefetchHint. *)
Record hint := Hint { h_address : Z; h_delta : Z; h_type : name }.

(** %SCNd64: strtoll. *)
Definition scan_int (s : list Z) : option (Z * list Z) :=
  let s := skip_ws s in
  let '(neg, s) := match s with
                   | 45 :: s' => (true, s') | 43 :: s' => (false, s') | _ => (false, s) end in
  match scan_digits 10 0 false s with
  | None => None
  | Some (v, s) =>
      Some ((if neg then Z.max (- 2 ^ 63) (- v) else Z.min (2 ^ 63 - 1) v), s)
  end.
(** %s: white space, then the longest non-empty run of other characters. *)
Fixpoint scan_run (s : list Z) : name * list Z :=
  match s with
  | c :: s' => if is_space c then ([], s) else let '(t, r) := scan_run s' in (c :: t, r)
  | [] => ([], [])
  end.
Definition scan_word (s : list Z) : option (name * list Z) :=
  match scan_run (skip_ws s) with ([], _) => None | (t, r) => Some (t, r) end.
(** profile_creator.cc:75: "%SCNx64,%SCNd64,%s\n". *)
Definition scan_hint (s : list Z) : option (hint * list Z) :=
  let? '(a, s) := scan_num 16 s in
  let? s := scan_lit 44 s in
  let? '(d, s) := scan_int s in
  let? s := scan_lit 44 s in
  let? '(t, s) := scan_word s in
  Some (Hint a d t, skip_ws s).

(** profile_creator.cc:66-92 ReadPrefetchHints; [None]: the file cannot be
    opened.  A type of five or more characters overflows prefetch_type[5]; [fuel]
    bounds the number of lines; the end of the file is noticed (feof) when the
    white space after a line reaches it. *)
Fixpoint read_hints (fuel : nat) (s : list Z) : outcome (list hint) :=
  match fuel with
  | O => Ok []
  | S fuel' =>
      match scan_hint s with
      | None => Ok []
      | Some (h, rest) =>
          if 5 <=? zlen (h_type h) then UB else
          match rest with
          | [] => Ok [h]
          | _ => let! l := read_hints fuel' rest in Ok (h :: l)
          end
      end
  end.
Definition ReadPrefetchHints (file : option (list Z)) : outcome (list hint) :=
  match file with None => Ok [] | Some s => read_hints (S (length s)) s end.

(** "__prefetch_" and "_". *)
Definition prefetch_prefix : name := [95; 95; 112; 114; 101; 102; 101; 116; 99; 104; 95].
Definition underscore : name := [95].

Section Convert.
  Variable base : Z -> Z.                    (* discriminator encoding *)
  Variable orig : name -> name.              (* GetOriginalName *)
  Variable symtab : list (Z * (name * Z)).   (* address_symbol_map_ *)
  Variable aliases : name -> list name.      (* name_alias_map_ *)
  Variable stack_of : Z -> list sinfo.       (* Addr2line::GetInlineStack *)
  Variable threshold : Z.                    (* count_threshold() *)

  (** symbol_map.cc:533-564 TraverseInlineStack, the result being whether it
      is not null (data source AFDOPROFILE). *)
  Definition TraverseInlineStack (n : name) (src : list sinfo) (count : Z) (m : smap) : outcome (smap * bool) :=
    match src with
    | [] => Ok (m, false)
    | _ => let! m := sm_update n (on_stack_node base false count (fun s => s) (rev src)) m in Ok (m, true)
    end.

  (** symbol_map.cc:1462-1475 EnsureEntryInFuncForSymbol. *)
  Definition EnsureEntryInFuncForSymbol (n : name) (pc : Z) (m : smap) : outcome (smap * bool) :=
    match sm_find m n with
    | Some _ => Ok (m, true)
    | None => TraverseInlineStack n (stack_of pc) (u64 (threshold + 1)) (AddSymbol (aliases n) n m)
    end.

  (** profile_creator.cc:233-261: the loop of ConvertPrefetchHints; [idx] is
      repeated_prefetches_indices (uint8_t values). *)
  Fixpoint convert_loop (hs : list hint) (idx : list (Z * Z)) (m : smap) : outcome smap :=
    match hs with
    | [] => Ok m
    | h :: hs' =>
        let pc := h_address h in
        match GetSymbolInfoByAddr symtab pc with
        | None => convert_loop hs' idx m
        | Some (n, _, _) =>
            let i := match aget Z.eqb pc idx with Some i => i | None => 0 end in
            let idx' := aset Z.eqb pc ((i + 1) mod 256) idx in
            let! '(m, ok) := EnsureEntryInFuncForSymbol n pc m in
            if negb ok then convert_loop hs' idx' m else
            let! m := AddIndirectCallTarget base orig false n (stack_of pc)
                        (prefetch_prefix ++ h_type h ++ underscore ++ print_dec i)
                        (u64 (h_delta h)) m in
            convert_loop hs' idx' m
        end
    end.

  (** profile_creator.cc:223-264 ConvertPrefetchHints on a new symbol map; an
      Addr2line object exists. *)
  Definition ConvertPrefetchHints (file : option (list Z)) : outcome smap :=
    let! hs := ReadPrefetchHints file in
    let! m := convert_loop hs [] (SMap [] []) in
    ElideSuffixesAndMerge orig m.
End Convert.
