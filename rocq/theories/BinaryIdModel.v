(** Model of the parts of llvm_propeller_binary_content.cc and
    perfdata_reader.cc that identify the profiled binary: build ids, file-name
    matching, and the .modinfo section of kernel modules.  Strings are lists of
    bytes. *)
From Verif Require Import Base SymbolModel.

(** The table "0123456789abcdef" of perfdata_reader.cc:39. *)
Definition heximal : list Z := [48; 49; 50; 51; 52; 53; 54; 55; 56; 57; 97; 98; 99; 100; 101; 102].
(** perfdata_reader.cc:37-46 BinaryDataToAscii. *)
Fixpoint BinaryDataToAscii (data : list Z) : name :=
  match data with
  | [] => []
  | d :: data' =>
      nth (Z.to_nat (Z.land (Z.shiftr d 4) 15)) heximal 0 :: nth (Z.to_nat (Z.land d 15)) heximal 0
        :: BinaryDataToAscii data'
  end.

(** llvm_propeller_binary_content.cc:120-123 hex_to_char. *)
Definition hex_to_char (v : Z) : Z := if v <? 10 then 48 + v else 97 + (v - 10).
(** llvm_propeller_binary_content.cc:138-143. *)
Fixpoint build_id_str (desc : list Z) : name :=
  match desc with
  | [] => []
  | t :: desc' => hex_to_char (Z.land (Z.shiftr t 4) 15) :: hex_to_char (Z.land t 15) :: build_id_str desc'
  end.
(** A section header and its notes as GetBuildId reads them: sh_type is
    SHT_NOTE, name (if it can be read), the (name, type, descriptor) of each
    note. *)
Record note := Note { nt_name : name; nt_type : Z; nt_desc : list Z }.
Record section := Section_ { sc_is_note : bool; sc_name : option name; sc_notes : list note }.
Definition build_id_section : name := [46;110;111;116;101;46;103;110;117;46;98;117;105;108;100;45;105;100]. (* .note.gnu.build-id *)
Definition kernel_build_id_section : name := [46;110;111;116;101;115].                                       (* .notes *)
Definition gnu : name := [71; 78; 85].
(** llvm_propeller_binary_content.cc:117-157 GetBuildId (iteration errors of
    LLVM are only logged and left out). *)
Definition section_build_ids (s : section) : list name :=
  match sc_name s with
  | Some n =>
      if sc_is_note s && (name_eqb n build_id_section || name_eqb n kernel_build_id_section)
      then map (fun t => build_id_str (nt_desc t)) (filter (fun t => name_eqb (nt_name t) gnu) (sc_notes s))
      else []
  | None => []
  end.
Definition GetBuildId (sections : list section) : name :=
  match flat_map section_build_ids sections with [] => [] | b :: _ => b end.

(** absl::StartsWith. *)
Fixpoint starts_with (n pre : name) {struct pre} : bool :=
  match pre, n with
  | [], _ => true
  | p :: pre', c :: n' => (p =? c) && starts_with n' pre'
  | _ :: _, [] => false
  end.
Definition anon_hugepage : name := [47;97;110;111;110;95;104;117;103;101;112;97;103;101].  (* /anon_hugepage *)
Definition anon_prefix : name := [91;97;110;111;110;58].                                   (* [anon: *)
Fixpoint nmem (n : name) (l : list name) : bool :=
  match l with [] => false | x :: l' => name_eqb n x || nmem n l' end.
Definition ninsert (n : name) (l : list name) : list name := if nmem n l then l else l ++ [n].
(** perfdata_reader.cc:91-127 GetBuildIdNames; a build-id record is (filename,
    build_id_hash) with absent fields.  [None] is the error status; the set is
    given in insertion order. *)
Definition build_id_step (build_id : name) (acc : list name) (r : option name * option (list Z)) : list name :=
  match r with
  | (Some f, Some h) =>
      if name_eqb (BinaryDataToAscii h) build_id then
        match f with
        | [] => acc
        | _ => if starts_with f anon_hugepage || starts_with f anon_prefix then acc else ninsert f acc
        end
      else acc
  | _ => acc
  end.
Definition GetBuildIdNames (records : list (option name * option (list Z))) (build_id : name) : option (list name) :=
  match fold_left (build_id_step build_id) records [] with
  | [] => None
  | l => Some l
  end.

Definition kallsyms : name := [91;107;101;114;110;101;108;46;107;97;108;108;115;121;109;115;93]. (* [kernel.kallsyms] *)
Definition kallsyms_text : name := kallsyms ++ [95;116;101;120;116].
Definition kallsyms_stext : name := kallsyms ++ [95;115;116;101;120;116].
(** perfdata_reader.cc:54-89 MMapSelector: constructor and operator().
    [name_set] lists the set in the order of the hash table; [is_absolute] and
    [filename] are llvm::sys::path functions. *)
Definition MMapSelector (is_absolute : name -> bool) (filename : name -> name) (name_set : list name)
    (mmap_fn : name) : bool :=
  match name_set with
  | [] => false                               (* *begin() of an empty set: never called so *)
  | n :: _ =>
      if (length name_set =? 1)%nat && name_eqb n kallsyms
      then nmem mmap_fn [kallsyms; kallsyms_text; kallsyms_stext]
      else if is_absolute n then nmem mmap_fn name_set
      else nmem (filename mmap_fn) (map filename name_set)
  end.

(** ** .modinfo *)
Inductive modinfo_error := MEmptySection | MEmptyEntry | MUnterminated | MNoEq | MNoKey | MNothing.
(** while (q != end && *q != '\0') ++q: the bytes before q, and those from q
    on. *)
Fixpoint upto (c : Z) (l : list Z) : list Z * list Z :=
  match l with
  | [] => ([], [])
  | x :: l' => if x =? c then ([], l) else let '(a, b) := upto c l' in (x :: a, b)
  end.
Fixpoint skip_nuls (l : list Z) : list Z :=
  match l with x :: l' => if x =? 0 then skip_nuls l' else l | [] => [] end.
(** flat_hash_map::emplace: an existing key keeps its value. *)
Definition emplace (k v : name) (m : list (name * name)) : list (name * name) :=
  match aget name_eqb k m with Some _ => m | None => m ++ [(k, v)] end.
(** llvm_propeller_binary_content.cc:250-294 ParseModInfoSectionContent: the
    loop; the list is [p, end).  [fuel] bounds the iterations, the length of the
    section is enough. *)
Fixpoint modinfo_loop (fuel : nat) (l : list Z) (m : list (name * name)) : list (name * name) + modinfo_error :=
  match fuel with
  | O => inl m
  | S fuel' =>
      match l with
      | [] => inl m
      | _ =>
          let '(entry, rest) := upto 0 l in
          match entry with
          | [] => inr MEmptyEntry
          | _ =>
              match rest with
              | [] => inr MUnterminated
              | _ :: after =>
                  let '(key, tail) := upto 61 entry in
                  match tail with
                  | [] => inr MNoEq
                  | _ :: value =>
                      match key with
                      | [] => inr MNoKey
                      | _ => modinfo_loop fuel' (skip_nuls after) (emplace key value m)
                      end
                  end
              end
          end
      end
  end.
Definition ParseModInfoSectionContent (l : list Z) : list (name * name) + modinfo_error :=
  match l with
  | [] => inr MEmptySection
  | _ => match modinfo_loop (length l) l [] with
         | inl [] => inr MNothing
         | r => r
         end
  end.
