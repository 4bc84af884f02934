(** What the command line of create_llvm_prof means. *)
From Coq Require Import Ascii String.
From Verif Require Import Base SymbolModel GenModel CmdModel.

(** A text is a list of pieces with a separator between them, and no piece
    contains the separator. *)
Inductive separated (sep : Z) : list name -> name -> Prop :=
| sp_last p : ~ In sep p -> separated sep [p] p
| sp_more p ps t : ~ In sep p -> separated sep ps t -> separated sep (p :: ps) (p ++ sep :: t).
(** The elements of [l] that satisfy [P], in order. *)
Inductive kept {A} (P : A -> Prop) : list A -> list A -> Prop :=
| kp_nil : kept P [] []
| kp_keep x l r : P x -> kept P l r -> kept P (x :: l) (x :: r)
| kp_drop x l r : ~ P x -> kept P l r -> kept P (x :: l) r.

(** The input files named by --profile: "@list" stands for the lines of the file
    [list] that are not empty and do not begin with '#' (no lines if there is no
    such file); anything else for the non-empty pieces between ';'. *)
Inductive names_of (fs : name -> option (list Z)) : name -> list name -> Prop :=
| no_list file s ls l : fs file = Some s -> separated 10 ls s ->
    kept (fun n => n <> [] /\ forall r, n <> 35 :: r) ls l -> names_of fs (64 :: file) l
| no_no_list file : fs file = None -> names_of fs (64 :: file) []
| no_names p ps l : (forall r, p <> 64 :: r) -> separated 59 ps p -> kept (fun n => n <> []) ps l -> names_of fs p l.

(** The value of a flag is one of some words. *)
Definition is_word (n : name) (w : string) : Prop := n = lit w.
(** Where the output goes: --gcov if it is given, else --out. *)
Definition output (f : flags) (o : name) : Prop := (f_gcov f <> [] /\ o = f_gcov f) \/ (f_gcov f = [] /\ o = f_out f).

(** The command lines that are refused. *)
Inductive refused (f : flags) : Prop :=
| rf_two_outputs : f_gcov f <> [] -> f_out f <> [] -> f_gcov f <> f_out f -> refused f
| rf_no_output : f_gcov f = [] -> f_out f = [] -> refused f
| rf_build_id : f_ignore_build_id f = true -> ~ is_word (f_format f) "propeller" -> refused f
| rf_split_layout : is_word (f_format f) "propeller" -> f_split_only f = true -> f_layout_only f = true -> refused f
| rf_several : ~ is_word (f_format f) "propeller" -> In 59 (f_profile f) -> refused f
| rf_list : ~ is_word (f_format f) "propeller" -> (exists r, f_profile f = 64 :: r) -> refused f
| rf_format : ~ is_word (f_format f) "propeller" -> ~ is_word (f_format f) "text" -> ~ is_word (f_format f) "binary" -> ~ is_word (f_format f) "extbinary" -> refused f
| rf_sym_list : f_prof_sym_list f = true -> ~ is_word (f_format f) "propeller" -> ~ is_word (f_format f) "extbinary" -> refused f.

(** The word for an output format. *)
Definition format_word (m : format) : string := match m with SPF_Text => "text" | SPF_Binary => "binary" | SPF_Ext_Binary => "extbinary" end.
(** The type that the flag --profiler stands for. *)
Definition profiler_type (n : name) (t : Z) : Prop :=
  (is_word n "perf" /\ t = 1) \/ (is_word n "perf_spe" /\ t = 2) \/ (~ is_word n "perf" /\ ~ is_word n "perf_spe" /\ t = 0).
