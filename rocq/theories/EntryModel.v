(** Model of symbol_map.cc 716-738 Symbol::EntryCount.  pos_counts is a std::map
    and callsites a hash map: lists in the order of iteration. *)
From Verif Require Import Base SrcOffsetModel SymbolModel.
Open Scope Z_scope.

(** symbol_map.cc:719-724: Offset of a SourceInfo with line 10000 and all else 0
    (source_info.h:38-54). *)
Definition max_offset : Z := GenerateOffset 10000 0.
(** symbol_map.cc:725-730 *)
Definition entry_pos (pos : list (Z * pinfo)) : Z * Z :=
  fold_left (fun (m : Z * Z) p => if fst p <? fst m then (fst p, p_count (snd p)) else m) pos (max_offset, 0).
(** symbol_map.cc:731-737; the callee's EntryCount is computed beforehand here, it
    has no effects. *)
Definition entry_calls (calls : list (callsite * Z)) (m : Z * Z) : Z * Z :=
  fold_left (fun (m : Z * Z) c => if fst (fst c) <? fst m then (fst (fst c), snd c) else m) calls m.
(** symbol_map.cc:716-738 *)
Fixpoint EntryCount (s : symbol) : Z :=
  match s with
  | Sym _ _ _ pos calls => snd (entry_calls (map (fun c => (fst c, EntryCount (snd c))) calls) (entry_pos pos))
  end.
