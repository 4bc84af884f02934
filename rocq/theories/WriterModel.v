(** Model of PropellerProfileWriter (llvm_propeller_profile_writer.{h,cc}): the
    text of the cluster file and of the symbol ordering file.  Texts are lists
    of bytes.  Opening the files and DumpCfgs (the .dot files) are not modelled.
    The text of the four scores ("%f") is given, not computed. *)
From Coq Require Import String Ascii DecimalString.
From Verif Require Import Base.

Notation text := (list Z).
(** A string literal of the code. *)
Definition txt (s : string) : text := map (fun c => Z.of_nat (nat_of_ascii c)) (list_ascii_of_string s).
Notation nl := (10 : Z).
Notation space := (32 : Z).
(** operator<< of an int. *)
Fixpoint digits (u : Decimal.uint) : text :=
  match u with
  | Decimal.Nil => []
  | Decimal.D0 u => 48 :: digits u | Decimal.D1 u => 49 :: digits u | Decimal.D2 u => 50 :: digits u | Decimal.D3 u => 51 :: digits u
  | Decimal.D4 u => 52 :: digits u | Decimal.D5 u => 53 :: digits u | Decimal.D6 u => 54 :: digits u | Decimal.D7 u => 55 :: digits u
  | Decimal.D8 u => 56 :: digits u | Decimal.D9 u => 57 :: digits u
  end.
Definition dec (z : Z) : text := if z <? 0 then 45 :: digits (N.to_uint (Z.to_N (- z))) else digits (N.to_uint (Z.to_N z)).
(** llvm::join and absl::StrJoin *)
Fixpoint join (sep : text) (l : list text) : text :=
  match l with [] => [] | [x] => x | x :: l' => x ++ sep ++ join sep l' end.

(** llvm_propeller_cfg.h:98-141 CFGNode::FullIntraCfgId *)
Record bbid := BBId { i_bb : Z; i_index : Z; i_clone : Z }.
(** llvm_propeller_function_cluster_info.h: BBCluster and FunctionClusterInfo;
    [wi_scores] is the text "#ext-tsp score: ..." without the line end. *)
Record wcluster := WCluster { wc_index : Z; wc_blocks : list bbid }.
Record winfo := WInfo { wi_func : Z; wi_clusters : list wcluster; wi_scores : text; wi_cold : Z }.
(** What the writer asks of a ControlFlowGraph.  A node:
    full_intra_cfg_id(), CalculateFrequency() and its out edges (IsBranchOrFallthrough(), bb_id() of
    the sink, weight()). *)
Record wnode := WNode { wn_id : bbid; wn_freq : Z; wn_outs : list (bool * Z * Z) }.
Record wcfg := WCfg { w_names : list text; w_module : option text; w_paths : list (list bbid); w_nodes : list wnode }.
(** llvm_propeller_profile_writer.h:26-57 ProfileEncoding, GetProfileEncoding *)
Inductive version := V0 | V1.
Record encoding := Encoding { e_version : version; e_spec : text; e_func : text; e_sep : text; e_module : text; e_cluster : text; e_path : text }.
Definition GetProfileEncoding (v : version) : encoding :=
  match v with
  | V0 => Encoding V0 (txt "v0") (txt "!") (txt "/") (txt " M=") (txt "!!") (txt "#NOT_SUPPORTED")
  | V1 => Encoding V1 (txt "v1") (txt "f ") (txt " ") (txt "m ") (txt "c") (txt "p")
  end.

(** llvm_propeller_profile_writer.cc:96-107 DumpCfgProfile *)
Definition DumpCfgProfile (g : wcfg) : text :=
  flat_map (fun n => txt "#cfg-prof " ++ dec (i_bb (wn_id n)) ++ txt ":" ++ dec (wn_freq n) ++
    flat_map (fun e => let '(b, s, w) := e in if negb b then [] else txt " " ++ dec s ++ txt ":" ++ dec w) (wn_outs n) ++ [nl]) (w_nodes g).

(** symbol_order[i] = x; outside the vector: undefined. *)
Fixpoint put {A} (i : nat) (x : A) (l : list A) : option (list A) :=
  match l, i with
  | [], _ => None
  | _ :: l', O => Some (x :: l')
  | y :: l', S i' => match put i' x l' with Some r => Some (y :: r) | None => None end
  end.
Definition assign {A} (i : Z) (x : A) (l : list A) : outcome (list A) :=
  if i <? 0 then UB else match put (Z.to_nat i) x l with Some r => Ok r | None => UB end.

Notation slot := (list text * option Z)%type.
(** llvm_propeller_profile_writer.cc:191-198: a block in a cluster line. *)
Definition block_text (b : bbid) : text := dec (i_bb b) ++ (if negb (i_clone b =? 0) then txt "." ++ dec (i_clone b) else []).
Fixpoint blocks_text (E : encoding) (first : bool) (bs : list bbid) : text :=
  match bs with [] => [] | b :: bs' => (if first then e_cluster E else [space]) ++ block_text b ++ blocks_text E false bs' end.
(** llvm_propeller_profile_writer.cc:176-200: the clusters of a function from
    number [id] on. *)
Fixpoint write_clusters (E : encoding) (names : list text) (id : Z) (cs : list wcluster) (cc : text) (so : list slot) : outcome (text * list slot) :=
  match cs with
  | [] => Ok (cc, so)
  | c :: cs' =>
      match wc_blocks c with
      | [] => UB (* front() *)
      | b :: _ =>
          let! so' := assign (wc_index c) (names, if i_index b =? 0 then None else Some id) so in
          write_clusters E names (id + 1) cs' (cc ++ blocks_text E true (wc_blocks c) ++ [nl]) so'
      end
  end.
(** llvm_propeller_profile_writer.cc:150-163: the clone paths. *)
Fixpoint write_paths (E : encoding) (ps : list (list bbid)) (cc : text) : outcome text :=
  match ps with
  | [] => Ok cc
  | p :: ps' =>
      match e_version E with
      | V0 => Abort
      | V1 => write_paths E ps' (cc ++ e_path E ++ join (txt " ") (map (fun b => dec (i_bb b)) p) ++ [nl])
      end
  end.
(** llvm_propeller_profile_writer.cc:132-208: one function. *)
Definition write_function (verbose : bool) (E : encoding) (cfgs : Z -> option wcfg) (z : winfo)
    (st : text * list slot * list (option winfo)) : outcome (text * list slot * list (option winfo)) :=
  let '(cc, so, cold) := st in
  match cfgs (wi_func z) with
  | None => Abort
  | Some g =>
      let cc := cc ++ match w_module g, e_version E with Some m, V1 => e_module E ++ m ++ [nl] | _, _ => [] end in
      let cc := cc ++ e_func E ++ join (e_sep E) (w_names g) in
      let cc := cc ++ match w_module g, e_version E with Some m, V0 => e_module E ++ m | _, _ => [] end in
      let cc := cc ++ [nl] in
      let! cc := write_paths E (w_paths g) cc in
      let! cc := if verbose then
                   match w_nodes g with
                   | [] => Abort (* GetEntryNode *)
                   | n :: _ => Ok (cc ++ wi_scores z ++ [nl] ++ txt "#entry-freq " ++ dec (wn_freq n) ++ [nl])
                   end
                 else Ok cc in
      let! '(cc, so) := write_clusters E (w_names g) 0 (wi_clusters z) cc so in
      let cc := if verbose then cc ++ DumpCfgProfile g else cc in
      let! cold := assign (wi_cold z) (Some z) cold in
      Ok (cc, so, cold)
  end.
Fixpoint write_functions (verbose : bool) (E : encoding) (cfgs : Z -> option wcfg) (zs : list winfo)
    (st : text * list slot * list (option winfo)) : outcome (text * list slot * list (option winfo)) :=
  match zs with [] => Ok st | z :: zs' => let! st := write_function verbose E cfgs z st in write_functions verbose E cfgs zs' st end.

(** llvm_propeller_profile_writer.cc:210-220: the symbols of the clusters. *)
Definition write_slot (s : slot) : text :=
  flat_map (fun n => n ++ match snd s with Some id => txt ".__part." ++ dec id | None => [] end ++ [nl]) (fst s).
(** llvm_propeller_profile_writer.cc:222-250: the cold symbols; an unset slot is
    a null pointer that is dereferenced. *)
Fixpoint write_cold (cfgs : Z -> option wcfg) (cs : list (option winfo)) (ld : text) : outcome text :=
  match cs with
  | [] => Ok ld
  | None :: _ => UB
  | Some z :: cs' =>
      match cfgs (wi_func z) with
      | None => Abort
      | Some g =>
          if fold_left (fun n c => n + zlen (wc_blocks c)) (wi_clusters z) 0 =? zlen (w_nodes g) then write_cold cfgs cs' ld
          else if existsb (fun c => match wc_blocks c with [] => true | _ => false end) (wi_clusters z) then UB
          else
            let entry := existsb (fun c => match wc_blocks c with b :: _ => i_index b =? 0 | [] => false end) (wi_clusters z) in
            write_cold cfgs cs' (ld ++ flat_map (fun n => n ++ (if entry then txt ".cold" else []) ++ [nl]) (w_names g))
      end
  end.
(** llvm_propeller_profile_writer.cc:115-251: one section. *)
Definition write_section (verbose : bool) (E : encoding) (cfgs : Z -> option wcfg) (sec : text * list winfo) (out : text * text) : outcome (text * text) :=
  let '(cc, ld) := out in let '(name, zs) := sec in
  let cc := if verbose then cc ++ txt "#section " ++ name ++ [nl] else cc in
  let total := fold_left (fun n z => n + zlen (wi_clusters z)) zs 0 in
  let! '(cc, so, cold) := write_functions verbose E cfgs zs (cc, repeat ([], None) (Z.to_nat total), repeat None (List.length zs)) in
  let! ld := write_cold cfgs cold (ld ++ flat_map write_slot so) in
  Ok (cc, ld).
Fixpoint write_sections (verbose : bool) (E : encoding) (cfgs : Z -> option wcfg) (secs : list (text * list winfo)) (out : text * text) : outcome (text * text) :=
  match secs with [] => Ok out | s :: secs' => let! out := write_section verbose E cfgs s out in write_sections verbose E cfgs secs' out end.
(** llvm_propeller_profile_writer.cc:110-254 Write: the cluster file and the
    symbol ordering file. *)
Definition Write (verbose : bool) (v : version) (cfgs : Z -> option wcfg) (secs : list (text * list winfo)) : outcome (text * text) :=
  let E := GetProfileEncoding v in
  let cc := match e_version E with V0 => [] | _ => e_spec E ++ [nl] end in
  write_sections verbose E cfgs secs (cc, []).
