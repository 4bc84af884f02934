(** Model of the names for the profile symbol list: symbol_map.cc
    collectNamesInProfile and collectNamesForProfSymList, and their use in
    profile_creator.cc.

    Simplification: the name stored in a function object is the one it is found
    under (the key of the symbol map, or of the call site for an inlined
    function), so it is not added a second time. *)
From Verif Require Import Base SymbolModel SymListModel.
From Coq Require Import Reals.
Open Scope Z_scope.

(** symbol_map.cc:1526-1542: call targets and inlined functions, recursively. *)
Fixpoint names_below (s : symbol) : list name :=
  match s with
  | Sym _ _ _ pos calls =>
      flat_map (fun lp => akeys (p_targets (snd lp))) pos ++
      (fix go (cs : list (callsite * symbol)) : list name :=
         match cs with [] => [] | ((_, callee), c) :: cs' => callee :: names_below c ++ go cs' end) calls
  end.
(** symbol_map.cc:1511-1544 collectNamesInProfile. *)
Definition collectNamesInProfile (m : smap) : list name :=
  flat_map (fun ni => match nth_error (sm_heap m) (snd ni) with
                      | Some s => if 0 <? s_total s then fst ni :: names_below s else []
                      | None => []
                      end) (sm_names m).
(** symbol_map.cc:1500-1509 collectNamesForProfSymList; [symtab] is
    address_symbol_map_. *)
Definition collectNamesForProfSymList (symtab : list (Z * (name * Z))) (m : smap) : list (name * Z) :=
  filter (fun e => negb (existsb (name_eqb (fst e)) (collectNamesInProfile m))) (map snd symtab).
(** profile_creator.cc:140-147: the names of prof_sym_list. *)
Definition prof_sym_list (orig : name -> name) (symtab : list (Z * (name * Z))) (ratio : R) (m : smap) : outcome (list name) :=
  fillProfileSymbolList orig (collectNamesForProfSymList symtab m) ratio.
