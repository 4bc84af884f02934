(** What the two files of the Propeller profile writer say. *)
From Coq Require Import String Ascii DecimalString.
From Coq Require Export Permutation.
From Verif Require Import Base LayoutSpec WriterModel.

Definition lines (l : list text) : text := flat_map (fun x => x ++ [10]) l.
(** The bytes of a string and of a number in decimal notation. *)
Definition bytes (s : string) : text := map (fun c => Z.of_nat (nat_of_ascii c)) (list_ascii_of_string s).
Definition decimal (n : Z) : text := bytes (NilEmpty.string_of_uint (N.to_uint (Z.to_N n))).

(** * The symbol ordering file *)
(** The clusters of the functions, each with its function and its number in the
    function. *)
Definition parts (zs : list winfo) : list (winfo * Z * wcluster) :=
  flat_map (fun z => map (fun p => (z, fst p, snd p)) (numbered 0 (wi_clusters z))) zs.
Definition part_index (p : winfo * Z * wcluster) : Z := wc_index (snd p).
Definition names_of (cfgs : Z -> option wcfg) (z : winfo) : list text := match cfgs (wi_func z) with Some g => w_names g | None => [] end.
Definition nodes_of (cfgs : Z -> option wcfg) (z : winfo) : list bbid := match cfgs (wi_func z) with Some g => map wn_id (w_nodes g) | None => [] end.
(** The symbol of a cluster is the function itself if the cluster has the entry
    (the block with index 0), and otherwise has the number of the cluster. *)
Definition has_entry (bs : list bbid) : bool := existsb (fun b => i_index b =? 0) bs.
Definition part_symbols (cfgs : Z -> option wcfg) (p : winfo * Z * wcluster) : list text :=
  let '(z, k, c) := p in map (fun n => if has_entry (wc_blocks c) then n else n ++ bytes ".__part." ++ decimal k) (names_of cfgs z).
Definition placed (z : winfo) : list bbid := flat_map wc_blocks (wi_clusters z).
Definition all_placed (cfgs : Z -> option wcfg) (z : winfo) : Prop := forall b, In b (nodes_of cfgs z) -> In b (placed z).
(** The symbols of the rest of a function, if there is a rest. *)
Inductive cold_symbols (cfgs : Z -> option wcfg) (z : winfo) : list text -> Prop :=
| cold_none : all_placed cfgs z -> cold_symbols cfgs z []
| cold_rest : ~ all_placed cfgs z -> cold_symbols cfgs z (map (fun n => if has_entry (placed z) then n ++ bytes ".cold" else n) (names_of cfgs z)).
(** The symbols of a section. *)
Inductive section_symbols (cfgs : Z -> option wcfg) (zs : list winfo) : list text -> Prop :=
| section_symbols_intro ps cs ss : Permutation ps (parts zs) -> map part_index ps = range (zlen (parts zs)) ->
    Permutation cs zs -> map wi_cold cs = range (zlen zs) -> Forall2 (cold_symbols cfgs) cs ss ->
    section_symbols cfgs zs (flat_map (part_symbols cfgs) ps ++ concat ss).

(** A layout result: what C32 says about the code layout. *)
Record section_wf (cfgs : Z -> option wcfg) (zs : list winfo) : Prop := {
  sw_cfg : forall z, In z zs -> cfgs (wi_func z) <> None;
  sw_nonempty : forall z c, In z zs -> In c (wi_clusters z) -> wc_blocks c <> [];
  sw_index : Permutation (map wc_index (flat_map wi_clusters zs)) (range (zlen (flat_map wi_clusters zs)));
  sw_cold : Permutation (map wi_cold zs) (range (zlen zs));
  sw_blocks : forall z, In z zs -> NoDup (placed z) /\ NoDup (nodes_of cfgs z) /\ nodes_of cfgs z <> [] /\ incl (placed z) (nodes_of cfgs z);
  sw_entry : forall z c b, In z zs -> In c (wi_clusters z) -> In b (tl (wc_blocks c)) -> i_index b <> 0 }.
Definition paths_ok (v : version) (cfgs : Z -> option wcfg) (zs : list winfo) : Prop :=
  v = V0 -> forall z g, In z zs -> cfgs (wi_func z) = Some g -> w_paths g = [].

(** * A reader of the cluster file
    The format is the one of LLVM's BasicBlockSectionsProfileReader, which is
    not part of the repository: version 1 starts with the line "v1"; then "m"
    gives the module of the next function, "f" starts a function with its
    names, "p" is a clone path and "c" a cluster of the current function, "#" is
    a comment.  In version 0 "!" starts a function and "!!" is a cluster. *)
Fixpoint split (sep : Z) (l : text) : list text :=
  match l with
  | [] => [[]]
  | b :: l' => if b =? sep then [] :: split sep l' else match split sep l' with [] => [[b]] | x :: r => (b :: x) :: r end
  end.
Definition number (t : text) : option Z :=
  match t with
  | [] => None
  | _ => match NilEmpty.uint_of_string (string_of_list_ascii (map (fun b => ascii_of_nat (Z.to_nat b)) t)) with
         | Some u => Some (Z.of_N (N.of_uint u)) | None => None end
  end.
Fixpoint all {A B} (f : A -> option B) (l : list A) : option (list B) :=
  match l with
  | [] => Some []
  | x :: l' => match f x, all f l' with Some y, Some r => Some (y :: r) | _, _ => None end
  end.
(** "12" or "12.3" *)
Definition block (t : text) : option (Z * Z) :=
  match split 46 t with
  | [a] => match number a with Some n => Some (n, 0) | None => None end
  | [a; b] => match number a, number b with Some n, Some m => Some (n, m) | _, _ => None end
  | _ => None
  end.
Record fentry := FEntry { f_names : list text; f_module : option text; f_paths : list (list Z); f_clusters : list (list (Z * Z)) }.
Definition to_last (f : fentry -> fentry) (es : list fentry) : option (list fentry) :=
  match rev es with [] => None | e :: r => Some (rev (f e :: r)) end.
Definition add_path (p : list Z) (e : fentry) := FEntry (f_names e) (f_module e) (f_paths e ++ [p]) (f_clusters e).
Definition add_cluster (c : list (Z * Z)) (e : fentry) := FEntry (f_names e) (f_module e) (f_paths e) (f_clusters e ++ [c]).
Definition rstate := (list fentry * option text)%type.
Definition cluster_line (s : rstate) (r : text) : option rstate :=
  match all block (split 32 r) with
  | Some c => match to_last (add_cluster c) (fst s) with Some es => Some (es, snd s) | None => None end
  | None => None
  end.
Definition read_line1 (s : rstate) (l : text) : option rstate :=
  match l with
  | 35 :: _ => Some s                                                  (* # *)
  | 109 :: 32 :: r => Some (fst s, Some r)                             (* m *)
  | 102 :: 32 :: r => Some (fst s ++ [FEntry (split 32 r) (snd s) [] []], None) (* f *)
  | 112 :: r =>                                                        (* p *)
      match all number (split 32 r) with
      | Some p => match to_last (add_path p) (fst s) with Some es => Some (es, snd s) | None => None end
      | None => None
      end
  | 99 :: r => cluster_line s r                                        (* c *)
  | _ => None
  end.
Definition read_line0 (s : rstate) (l : text) : option rstate :=
  match l with
  | 35 :: _ => Some s
  | 33 :: 33 :: r => cluster_line s r                                  (* !! *)
  | 33 :: r =>                                                         (* ! *)
      match split 32 r with
      | [ns] => Some (fst s ++ [FEntry (split 47 ns) None [] []], snd s)
      | [ns; 77 :: 61 :: m] => Some (fst s ++ [FEntry (split 47 ns) (Some m) [] []], snd s)
      | _ => None
      end
  | _ => None
  end.
Fixpoint read_lines (step : rstate -> text -> option rstate) (s : rstate) (ls : list text) : option rstate :=
  match ls with [] => Some s | l :: ls' => match step s l with Some s' => read_lines step s' ls' | None => None end end.
Definition read_file (t : text) : option (list fentry) :=
  let ls := removelast (split 10 t) in
  match (match ls with [118; 49] :: ls' => read_lines read_line1 ([], None) ls' | _ => read_lines read_line0 ([], None) ls end) with
  | Some (es, _) => Some es
  | None => None
  end.

(** What is written for a function. *)
Definition entry_of (cfgs : Z -> option wcfg) (z : winfo) : fentry :=
  match cfgs (wi_func z) with
  | Some g => FEntry (w_names g) (w_module g) (map (map i_bb) (w_paths g)) (map (fun c => map (fun b => (i_bb b, i_clone b)) (wc_blocks c)) (wi_clusters z))
  | None => FEntry [] None [] []
  end.
(** Texts that do not contain the separators, and numbers that are not
    negative. *)
Definition free (bad : list Z) (t : text) : Prop := forall b, In b t -> ~ In b bad.
Record texts_ok (v : version) (cfgs : Z -> option wcfg) (sec : text * list winfo) : Prop := {
  to_section : free [10] (fst sec);
  to_scores : forall z, In z (snd sec) -> free [10] (wi_scores z) /\ hd 0 (wi_scores z) = 35;
  to_blocks : forall z c b, In z (snd sec) -> In c (wi_clusters z) -> In b (wc_blocks c) -> 0 <= i_bb b /\ 0 <= i_clone b;
  to_names : forall z g, In z (snd sec) -> cfgs (wi_func z) = Some g -> w_names g <> [] /\ forall n, In n (w_names g) -> free [10; 32] n;
  to_names0 : v = V0 -> forall z g n, In z (snd sec) -> cfgs (wi_func z) = Some g -> In n (w_names g) -> free [33; 47] n;
  to_module : forall z g m, In z (snd sec) -> cfgs (wi_func z) = Some g -> w_module g = Some m -> free [10; 32] m;
  to_paths : forall z g p, In z (snd sec) -> cfgs (wi_func z) = Some g -> In p (w_paths g) -> p <> [] /\ forall b, In b p -> 0 <= i_bb b }.
