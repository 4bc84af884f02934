(** Model of the command line of create_llvm_prof (create_llvm_prof.cc 24-293,
    with llvm_propeller_options_builder.cc for the options it builds): which
    combinations of flags are refused, which options a Propeller run gets, and
    what is handed to ProfileCreator::CreateProfile otherwise.  The run itself is
    GenModel; the profile creation of the other formats is a function that tells
    whether it succeeds.  Flags that only tune the layout or the output
    (distances, chain splitting, module names, --http, CFG dumps) are left out,
    as is the parsing of the command line by absl. *)
From Coq Require Import Ascii String.
From Verif Require Import Base SymbolModel LayoutModel WriterModel PropEndModel GenModel.

(** The characters of a string literal of the program. *)
Definition lit (s : string) : name := List.map (fun c => Z.of_nat (nat_of_ascii c)) (list_ascii_of_string s).

(** create_llvm_prof.cc:30-128: the flags. *)
Record flags := Flags {
  f_profile : name; f_profiler : name; f_format : name; f_out : name; f_gcov : name; f_symorder : name;
  f_binary : name; f_profiled : name; f_ignore_build_id : bool;
  f_split_only : bool; f_layout_only : bool; f_prof_sym_list : bool }.

(** create_llvm_prof.cc:130-137 GetProfileTypeFromFlag *)
Definition GetProfileTypeFromFlag (f : flags) : Z :=
  if name_eqb (f_profiler f) (lit "perf") then 1
  else if name_eqb (f_profiler f) (lit "perf_spe") then 2
  else 0.

(** std::getline(fin, pf) until it fails (create_llvm_prof.cc:145): [cur] is what
    has been extracted of the current line, newest first; at the end of the file
    a line without characters is not one. *)
Fixpoint getlines (cur : name) (s : list Z) : list name :=
  match s with
  | [] => match cur with [] => [] | _ => [rev cur] end
  | c :: s' => if c =? 10 then rev cur :: getlines [] s' else getlines (c :: cur) s'
  end.

(** absl::StrSplit (create_llvm_prof.cc:154): n separators make n+1 pieces. *)
Fixpoint StrSplit (sep : Z) (cur : name) (s : name) : list name :=
  match s with
  | [] => [rev cur]
  | c :: s' => if c =? sep then rev cur :: StrSplit sep [] s' else StrSplit sep (c :: cur) s'
  end.

(** create_llvm_prof.cc:139-159: the input profiles; [fs] are the list files, [None]: it
    cannot be opened (then the first getline fails).  A profile added without
    SetType has no type, which reads as unspecified. *)
Definition input_profiles (fs : name -> option (list Z)) (f : flags) : list (name * Z) :=
  match f_profile f with
  | 64 :: file =>
      let ls := match fs file with None => [] | Some s => getlines [] s end in
      List.map (fun pf => (pf, GetProfileTypeFromFlag f)) (filter (fun pf => match pf with [] => false | c :: _ => negb (c =? 35) end) ls)
  | pstr => List.map (fun pf => (pf, 0)) (filter (fun pf => match pf with [] => false | _ => true end) (StrSplit 59 [] pstr))
  end.

(** create_llvm_prof.cc:139-195 CreatePropellerOptionsFromFlags: every setter is
    called, with an empty string for a flag that is not given, so that
    profiled_binary_name is always present in the message. *)
Record prop_options := PropOptions {
  po_options : options; po_cluster_out : name; po_symorder_out : name; po_reorder : bool; po_split_functions : bool }.
Definition CreatePropellerOptionsFromFlags (fs : name -> option (list Z)) (f : flags) (out : name) : prop_options :=
  PropOptions (Options (f_binary f) (Some (f_profiled f)) (f_ignore_build_id f) [] (input_profiles fs f))
    out (f_symorder f) (negb (f_split_only f)) (negb (f_layout_only f)).

(** What main does once the flags are accepted. *)
Inductive format := SPF_Text | SPF_Binary | SPF_Ext_Binary.
Record llvm_job := Job { j_binary : name; j_profile : name; j_profiler : name; j_format : format; j_out : name; j_sym_list : bool }.
Inductive action := Refuse | Propeller (p : prop_options) | Create (j : llvm_job).

(** absl::StrContains(s, ";") *)
Definition contains (c : Z) (s : name) : bool := existsb (Z.eqb c) s.
(** !pstr.empty() && pstr[0] == '@' *)
Definition is_list_file (s : name) : bool := match s with 64 :: _ => true | _ => false end.
Definition is_empty (s : name) : bool := match s with [] => true | _ => false end.

(** create_llvm_prof.cc:197-287 main, up to the call that does the work *)
Definition main (fs : name -> option (list Z)) (f : flags) : action :=
  if negb (is_empty (f_gcov f)) && negb (is_empty (f_out f)) && negb (name_eqb (f_out f) (f_gcov f)) then Refuse else
  let out := if is_empty (f_gcov f) then f_out f else f_gcov f in
  if is_empty out then Refuse else
  if f_ignore_build_id f && negb (name_eqb (f_format f) (lit "propeller")) then Refuse else
  if name_eqb (f_format f) (lit "propeller") then
    if f_split_only f && f_layout_only f then Refuse
    else Propeller (CreatePropellerOptionsFromFlags fs f out)
  else
  if contains 59 (f_profile f) then Refuse else
  if is_list_file (f_profile f) then Refuse else
  match (if name_eqb (f_format f) (lit "text") then Some SPF_Text
         else if name_eqb (f_format f) (lit "binary") then Some SPF_Binary
         else if name_eqb (f_format f) (lit "extbinary") then Some SPF_Ext_Binary else None) with
  | None => Refuse
  | Some fmt =>
      if f_prof_sym_list f && negb (name_eqb (f_format f) (lit "extbinary")) then Refuse
      else Create (Job (f_binary f) (f_profile f) (f_profiler f) fmt out (f_prof_sym_list f))
  end.

(** The settings of the layout (create_llvm_prof.cc:181-184); everything else
    is left as it is. *)
Definition apply_options (p : prop_options) (S : settings) : settings :=
  Settings (s_text_only S) (s_score S) (s_ifr S) (s_chain_split S) (s_threshold S) (po_split_functions p) (po_reorder p) (s_thr S)
    (s_clustering S) (s_dens S) (s_min S) (s_reject S) (s_ord S) (s_names S) (s_falls S) (s_cfgs S) (s_addr S).

(** create_llvm_prof.cc:197-293: the value returned by main and the files
    written (llvm_propeller_profile_writer.cc:107-110: none for an empty name).  [image_of]: what is read from the binary of a name; [create]: the
    content of the profile file, if CreateProfile succeeds. *)
Definition run (dbg verbose : bool) (v : version) (scores : finfo -> text) (W : world) (image_of : name -> image) (S : settings)
    (create : llvm_job -> option (list Z)) (fs : name -> option (list Z)) (f : flags) : outcome (Z * list (name * list Z)) :=
  match main fs f with
  | Refuse => Ok (1, [])
  | Propeller p =>
      let! r := GeneratePropellerProfiles dbg verbose v scores W (po_options p) (image_of (o_binary (po_options p))) (apply_options p S) in
      Ok (match r with
          | inl (cc, ld) => (0, filter (fun o => negb (is_empty (fst o))) [(po_cluster_out p, cc); (po_symorder_out p, ld)])
          | inr _ => (1, [])
          end)
  | Create j => Ok (match create j with Some b => (0, [(j_out j, b)]) | None => (-1, []) end)
  end.
