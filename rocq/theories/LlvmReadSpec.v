(** Merging LLVM profiles, stated without the model: what the input profiles say
    about a function, and what the merged profile must say about it. *)
From Verif Require Import Base SrcOffsetModel SymbolModel SymbolSpec LlvmReadModel.

(** *** What one input function says *)

(** A sample record: the inline path it is under, its location, its count and
    its call targets. *)
Record srec := SRec { r_path : path; r_loc : Z; r_count : Z; r_targets : list (name * Z) }.

(** the location number of (line offset, discriminator) *)
Definition loc_of (base : Z -> Z) (ld : Z * Z) : Z :=
  GenerateOffset (fst ld mod 2 ^ 32) (base (snd ld)).

(** all records of a function, its own and those of everything inlined in it *)
Fixpoint srecs (base : Z -> Z) (P : path) (f : fsamples) : list srec :=
  match f with
  | FS n _ _ body calls =>
      map (fun x => SRec P (loc_of base (fst x)) (fst (snd x)) (snd (snd x))) body
      ++ flat_map (fun x => match snd x with
                            | FS callee _ _ _ _ =>
                                srecs base (P ++ [(loc_of base (fst x), callee)]) (snd x)
                            end) calls
  end.
Definition fs_head (f : fsamples) : Z := match f with FS _ h _ _ _ => h end.
Definition fs_total (f : fsamples) : Z := match f with FS _ _ t _ _ => t end.

Definition zsum (l : list Z) : Z := fold_right Z.add 0 l.
Definition sampled (base : Z -> Z) (f : fsamples) : Z := zsum (map r_count (srecs base [] f)).

(** counts are 64-bit *)
Definition fs_ok (base : Z -> Z) (f : fsamples) : Prop :=
  is_u64 (fs_head f) /\ is_u64 (fs_total f) /\
  Forall (fun r => is_u64 (r_count r) /\ Forall (fun tc => is_u64 (snd tc)) (r_targets r))
         (srecs base [] f).
(** the functions of one profile have different names *)
Definition profile_ok (base : Z -> Z) (p : list fsamples) : Prop :=
  NoDup (map fs_name p) /\ Forall (fs_ok base) p.

(** *** What the result says *)

(** the records of a list of functions that are at a path and location *)
Definition recs_at (base : Z -> Z) (fs : list fsamples) (q : path) (l : Z) : list srec :=
  filter (fun r => path_eqb (r_path r) q && (r_loc r =? l)) (flat_map (srecs base []) fs).
Definition recs_under (base : Z -> Z) (fs : list fsamples) (q : path) : list srec :=
  filter (fun r => is_prefix q (r_path r)) (flat_map (srecs base []) fs).
(** the counts the records give to a call target (after name elision), in order *)
Definition target_counts (orig : name -> name) (rs : list srec) (t : name) : list Z :=
  flat_map (fun r => map snd (filter (fun tc => name_eqb (orig (fst tc)) t) (r_targets r))) rs.

(** The function's own total: the sum of its samples; a function whose running
    total is zero takes its declared total instead. *)
Fixpoint total_rule (base : Z -> Z) (T : Z) (fs : list fsamples) : Z :=
  match fs with
  | [] => T
  | f :: fs' =>
      let t := (T + sampled base f) mod 2 ^ 64 in
      total_rule base (if t =? 0 then fs_total f else t) fs'
  end.

(** [s] is the merge of the functions [fs], in that order. *)
Definition is_merge_of (base : Z -> Z) (orig : name -> name) (fs : list fsamples) (s : symbol) : Prop :=
  s_head s = zsum (map fs_head fs) mod 2 ^ 64 /\
  s_total s = total_rule base 0 fs /\
  forall q l t,
    (has_node s q = true <-> q = [] \/ recs_under base fs q <> []) /\
    (q <> [] -> head_at s q = 0) /\
    (q <> [] -> total_at s q = zsum (map r_count (recs_under base fs q)) mod 2 ^ 64) /\
    has_pos s q l = negb (match recs_at base fs q l with [] => true | _ => false end) /\
    count_at s q l = zsum (map r_count (recs_at base fs q l)) mod 2 ^ 64 /\
    ninst_at s q l = Z.of_nat (length (recs_at base fs q l)) mod 2 ^ 64 /\
    (* call targets do not add up: the last one read wins *)
    target_at s q l t = last (target_counts orig (recs_at base fs q l) t) 0 /\
    (has_target s q l t = true <-> target_counts orig (recs_at base fs q l) t <> []).

(** *** Special symbols *)

Definition begins (pre n : name) : Prop := exists rest, n = pre ++ rest.
Inductive kind := Strip | Sole | Cold | Plain.
(** the first list with a prefix of the name decides *)
Definition kind_of (sp : option special) (n : name) (k : kind) : Prop :=
  match sp with
  | None => k = Plain
  | Some sp =>
      match k with
      | Strip => Exists (fun pre => begins pre n) (strip_all sp)
      | Sole => Exists (fun pre => begins pre n) (keep_sole sp) /\
                ~ Exists (fun pre => begins pre n) (strip_all sp)
      | Cold => Exists (fun pre => begins pre n) (keep_cold sp) /\
                ~ Exists (fun pre => begins pre n) (strip_all sp) /\
                ~ Exists (fun pre => begins pre n) (keep_sole sp)
      | Plain => ~ Exists (fun pre => begins pre n) (strip_all sp) /\
                 ~ Exists (fun pre => begins pre n) (keep_sole sp) /\
                 ~ Exists (fun pre => begins pre n) (keep_cold sp)
      end
  end.

(** the functions called [n] of all profiles, in reading order: one for every
    profile that has it, when the profiles are well-formed *)
Definition occurrences (ps : list (list fsamples)) (n : name) : list fsamples :=
  filter (fun f => name_eqb (fs_name f) n) (concat ps).

(** the cold profile: no head count, the smallest total above the minimum, no body *)
Definition cold_symbol : symbol := Sym 0 11 0 [] [].

(** What the merged profile holds under a name, if anything. *)
Definition expected (base : Z -> Z) (orig : name -> name) (k : kind) (fs : list fsamples)
    (s : symbol) : Prop :=
  match k with
  | Strip => False
  | Sole => length fs = 1%nat /\ is_merge_of base orig fs s
  | Cold => fs <> [] /\ s = cold_symbol
  | Plain => fs <> [] /\ is_merge_of base orig fs s
  end.
