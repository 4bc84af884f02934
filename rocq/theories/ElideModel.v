(** Model of the suffix elision of function names: symbol_map.cc:89-90, 241-341. *)
From Verif Require Import Base SymbolModel.

Fixpoint starts_with (pre l : name) : bool :=
  match pre, l with
  | [], _ => true
  | x :: pre', y :: l' => (x =? y) && starts_with pre' l'
  | _ :: _, [] => false
  end.
(** std::string::rfind (for non-empty [sub]). *)
Fixpoint rfind (sub l : name) : option nat :=
  match l with
  | [] => None
  | _ :: l' => match rfind sub l' with
               | Some i => Some (S i)
               | None => if starts_with sub l then Some O else None
               end
  end.
(** std::string::find_first_of('.', 0). *)
Fixpoint find_dot (l : name) : option nat :=
  match l with
  | [] => None
  | x :: l' => if x =? 46 then Some O else option_map S (find_dot l')
  end.

(** symbol_map.cc:259-265 StripLastOccurrenceOf. *)
Definition StripLastOccurrenceOf (sub l : name) : name :=
  match rfind sub l with
  | None => l
  | Some i => firstn i l ++ skipn (i + length sub) l
  end.
(** symbol_map.cc:270-282 StripSuffixWithTwoDots. *)
Definition StripSuffixWithTwoDots (sub l : name) : name :=
  match rfind sub l with
  | None => l
  | Some i => match find_dot (skipn (i + length sub) l) with
              | None => firstn i l
              | Some j => firstn i l ++ skipn (i + length sub + j) l
              end
  end.

(** symbol_map.cc:89-90 selectedSuffixes. *)
Definition sfx_cold : name := [46; 99; 111; 108; 100].                       (* .cold *)
Definition sfx_llvm : name := [46; 108; 108; 118; 109; 46].                  (* .llvm. *)
Definition sfx_lto_priv : name := [46; 108; 116; 111; 95; 112; 114; 105; 118]. (* .lto_priv *)
Definition sfx_part : name := [46; 95; 95; 112; 97; 114; 116; 46].           (* .__part. *)
Definition sfx_isra : name := [46; 105; 115; 114; 97].                       (* .isra *)
Definition selectedSuffixes : list name := [sfx_cold; sfx_llvm; sfx_lto_priv; sfx_part; sfx_isra].

Inductive policy := ElideAll | ElideSelected | ElideNone.

(** symbol_map.cc:284-312 GetOriginalName. *)
Definition elide_step (n : name) (cand sfx : name) : name :=
  if name_eqb sfx sfx_cold then StripLastOccurrenceOf sfx cand
  else if (2 <=? zlen n) && starts_with [46] sfx && (last sfx 0 =? 46)
       then StripSuffixWithTwoDots sfx cand
       else cand.
Definition GetOriginalName (pol : policy) (n : name) : name :=
  match pol with
  | ElideNone => n
  | ElideAll =>
      if starts_with [46] n then n
      else match find_dot n with Some i => firstn i n | None => n end
  | ElideSelected => fold_left (elide_step n) selectedSuffixes n
  end.

(** symbol_map.cc:322-340: one iteration of the second loop of
    ElideSuffixesAndMerge. *)
Definition elide_one (orig : name -> name) (m : smap) (y : name) : outcome smap :=
  match aget name_eqb y (sm_names m) with
  | None => Abort
  | Some i =>
      match nth_error (sm_heap m) i with
      | None => UB
      | Some sym =>
          let names1 := aremove name_eqb y (sm_names m) in
          let fresh := length (sm_heap m) in
          let '(j, names2, heap1) :=
            match aget name_eqb (orig y) names1 with
            | Some j => if Nat.eqb j i
                        then (fresh, aset name_eqb (orig y) fresh names1, sm_heap m ++ [sym0])
                        else (j, names1, sm_heap m)
            | None => (fresh, aset name_eqb (orig y) fresh names1, sm_heap m ++ [sym0])
            end in
          match nth_error heap1 j with
          | None => UB
          | Some dst =>
              Ok (SMap (map (fun '(n, x) => (n, if Nat.eqb x i then j else x)) names2)
                       (set_nth j (merge dst sym) heap1))
          end
      end
  end.
Fixpoint elide_all_of (orig : name -> name) (ys : list name) (m : smap) : outcome smap :=
  match ys with
  | [] => Ok m
  | y :: ys' => obind (elide_one orig m y) (elide_all_of orig ys')
  end.
(** symbol_map.cc:314-341 ElideSuffixesAndMerge. *)
Definition ElideSuffixesAndMerge (orig : name -> name) (m : smap) : outcome smap :=
  elide_all_of orig (filter (fun n => negb (name_eqb (orig n) n)) (akeys (sm_names m))) m.
