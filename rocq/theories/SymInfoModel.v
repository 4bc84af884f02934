(** Model of the symbols Propeller gives to the functions of the address map:
    llvm_propeller_binary_address_mapper.cc ReadSymbolTable, GetSymbolInfoMap.

    A symbol is what LLVM's ELFSymbolRef answers about it: getName and
    getAddress may fail ([None]); a symbol without section (undefined or
    absolute) has no section to take the name of. *)
From Verif Require Import Base SymbolModel.

Record esym := ESym { e_type : Z; e_addr : option Z; e_name : option name; e_size : Z; e_sect : option name }.
Definition STT_FUNC : Z := 2.

(** llvm_propeller_binary_address_mapper.cc:66-82: no symbol of another size at
    the address. *)
Fixpoint check_size_ok (size : Z) (l : list esym) : bool :=
  match l with
  | [] => true
  | s :: l' => if negb (size =? e_size s) then false else check_size_ok size l'
  end.
(** llvm_propeller_binary_address_mapper.cc:51-86 ReadSymbolTable. *)
Fixpoint read_symbols (l : list esym) (tab : list (Z * list esym)) : list (Z * list esym) :=
  match l with
  | [] => tab
  | s :: l' =>
      read_symbols l'
        (if negb (e_type s =? STT_FUNC) then tab else
         match e_addr s with
         | None => tab
         | Some a =>
             if a =? 0 then tab else
             match e_name s with
             | None => tab
             | Some _ =>
                 if e_size s =? 0 then tab else
                 let at_a := match aget Z.eqb a tab with Some x => x | None => [] end in
                 aset Z.eqb a (if check_size_ok (e_size s) at_a then at_a ++ [s] else at_a) tab
             end
         end)
  end.
Definition ReadSymbolTable (l : list esym) : list (Z * list esym) := read_symbols l [].

Record FunctionSymbolInfo := FSI { aliases : list name; section_name : name }.

(** ".text" *)
Definition text : name := [46; 116; 101; 120; 116].
(** StringRef::starts_with *)
Fixpoint starts_with (p s : name) : bool :=
  match p, s with
  | [], _ => true
  | c :: p', d :: s' => (c =? d) && starts_with p' s'
  | _ :: _, [] => false
  end.
(** llvm_propeller_binary_address_mapper.cc:133-145: the aliases and the section;
    cantFail of a name that fails, or the name of no section, is undefined. *)
Fixpoint names_of (l : list esym) : outcome (list name) :=
  match l with
  | [] => Ok []
  | s :: l' => match e_name s with None => UB | Some n => let! r := names_of l' in Ok (n :: r) end
  end.
Definition symbol_info (l : list esym) : outcome FunctionSymbolInfo :=
  let! ns := names_of l in
  match l with
  | [] => UB
  | s :: _ =>
      match e_sect s with
      | None => UB
      | Some sn => Ok (FSI ns (if name_eqb sn text || starts_with (text ++ [46]) sn then firstn 5 sn else sn))
      end
  end.
(** llvm_propeller_binary_address_mapper.cc:116-147 GetSymbolInfoMap; [addrs] are
    the function addresses of the address map, [i] the index of the first. *)
Fixpoint symbol_info_loop (tab : list (Z * list esym)) (addrs : list Z) (i : Z) : outcome (list (Z * FunctionSymbolInfo)) :=
  match addrs with
  | [] => Ok []
  | a :: addrs' =>
      match aget Z.eqb a tab with
      | None => symbol_info_loop tab addrs' (i + 1)
      | Some l =>
          let! fi := symbol_info l in
          let! r := symbol_info_loop tab addrs' (i + 1) in
          Ok ((i, fi) :: r)
      end
  end.
Definition GetSymbolInfoMap (tab : list (Z * list esym)) (addrs : list Z) : outcome (list (Z * FunctionSymbolInfo)) :=
  symbol_info_loop tab addrs 0.
