(** Model of the LLVM profile writer up to LLVM's own serialisation:
    llvm_profile_writer.cc:79-172 (LLVMProfileBuilder), profile_writer.h:114-148
    (SymbolTraverser) and llvm_profile_writer.cc:186-203 (WriteToFile).

    Simplifications: the containers of llvm::sampleprof::FunctionSamples are
    association lists, and its two-level map of callsites is one map from
    (location, callee) to FunctionSamples; a pointer to a FunctionSamples (these
    containers never move their elements) is the name of the top-level function
    and the keys on the way to it; LLVM's counters saturate and report
    counter_overflow, which every caller here turns into LOG(FATAL): Abort. *)
From Verif Require Import Base SrcOffsetModel SymbolModel AfdoModel LlvmReadModel.

(** (line offset, discriminator) and callee *)
Notation lloc := (Z * Z)%type.
Notation lkey := (Z * Z * name)%type.
Definition lloc_eqb (a b : lloc) : bool := (fst a =? fst b) && (snd a =? snd b).
Definition lkey_eqb (a b : lkey) : bool := lloc_eqb (fst a) (fst b) && name_eqb (snd a) (snd b).

(** llvm/ProfileData/SampleProf.h FunctionSamples *)
Inductive lfs :=
  LFS (fname : name) (head total : Z) (body : list (lloc * (Z * list (name * Z)))) (calls : list (lkey * lfs)).
Definition lfs0 : lfs := LFS [] 0 0 [] [].
Definition lf_name (f : lfs) := match f with LFS n _ _ _ _ => n end.
Definition lf_head (f : lfs) := match f with LFS _ h _ _ _ => h end.
Definition lf_total (f : lfs) := match f with LFS _ _ t _ _ => t end.
Definition lf_body (f : lfs) := match f with LFS _ _ _ b _ => b end.
Definition lf_calls (f : lfs) := match f with LFS _ _ _ _ c => c end.

(** SampleProf.h: SaturatingAdd, and LOG(FATAL) on counter_overflow *)
Definition sat_add (a b : Z) : outcome Z := if a + b <? 2 ^ 64 then Ok (a + b) else Abort.

(** FunctionSamples::addHeadSamples, addTotalSamples, setFunction *)
Definition add_head (x : Z) (f : lfs) : outcome lfs :=
  match f with LFS n h t b c => let! h := sat_add h x in Ok (LFS n h t b c) end.
Definition add_total (x : Z) (f : lfs) : outcome lfs :=
  match f with LFS n h t b c => let! t := sat_add t x in Ok (LFS n h t b c) end.
Definition set_function (x : name) (f : lfs) : lfs :=
  match f with LFS _ h t b c => LFS x h t b c end.
(** FunctionSamples::addBodySamples, addCalledTargetSamples *)
Definition body_get (l : lloc) (b : list (lloc * (Z * list (name * Z)))) : Z * list (name * Z) :=
  match aget lloc_eqb l b with Some r => r | None => (0, []) end.
Definition add_body (l : lloc) (x : Z) (f : lfs) : outcome lfs :=
  match f with
  | LFS n h t b c =>
      let r := body_get l b in let! v := sat_add (fst r) x in Ok (LFS n h t (aset lloc_eqb l (v, snd r) b) c)
  end.
Definition add_target (l : lloc) (g : name) (x : Z) (f : lfs) : outcome lfs :=
  match f with
  | LFS n h t b c =>
      let r := body_get l b in let! v := sat_add (tget g (snd r)) x in
      Ok (LFS n h t (aset lloc_eqb l (fst r, aset name_eqb g v (snd r)) b) c)
  end.

(** Pointers *)
Definition fchild (k : lkey) (f : lfs) : option lfs := aget lkey_eqb k (lf_calls f).
Definition set_child (k : lkey) (c : lfs) (f : lfs) : lfs :=
  match f with LFS n h t b cs => LFS n h t b (aset lkey_eqb k c cs) end.
Fixpoint fget (q : list lkey) (f : lfs) : option lfs :=
  match q with [] => Some f | k :: q' => match fchild k f with Some c => fget q' c | None => None end end.
Fixpoint fput (q : list lkey) (x : lfs) (f : lfs) : lfs :=
  match q with
  | [] => x
  | k :: q' => match fchild k f with Some c => set_child k (fput q' x c) f | None => f end
  end.
Notation ptr := (name * list lkey)%type.
(** profiles_ and inline_stack_, its last element being back() *)
Notation wstate := (list (name * lfs) * list ptr)%type.
Definition pget_ (p : ptr) (ps : list (name * lfs)) : option lfs :=
  match aget name_eqb (fst p) ps with Some f => fget (snd p) f | None => None end.
Definition pput (p : ptr) (x : lfs) (ps : list (name * lfs)) : list (name * lfs) :=
  match aget name_eqb (fst p) ps with Some f => aset name_eqb (fst p) (fput (snd p) x f) ps | None => ps end.
Definition back (st : list ptr) : option ptr := match rev st with [] => None | p :: _ => Some p end.

(** llvm_profile_writer.cc:159-172 GetNameRef *)
Definition GetNameRef (table : list name) (n : name) : outcome name :=
  let! n := checked_name n in if existsb (name_eqb n) table then Ok n else Abort.

(** source_info.h:84-91, llvm_profile_writer.cc:101-102, 131-132 *)
Definition line_disc (offset : Z) : lloc := (GetLineNumberFromOffset offset, GetDiscriminatorFromOffset offset).

(** llvm_profile_writer.cc:79-96 VisitTopSymbol *)
Definition visit_top (table : list name) (n : name) (s : symbol) (st : wstate) : outcome wstate :=
  let! n := GetNameRef table n in
  let f := match aget name_eqb n (fst st) with Some f => f | None => lfs0 end in
  let! f := add_head (s_head s) f in
  let! f := add_total (s_total s) f in
  Ok (aset name_eqb n (set_function n f) (fst st), [(n, [])]).

(** llvm_profile_writer.cc:98-115 VisitCallsite *)
Definition visit_callsite (table : list name) (level : nat) (k : callsite) (st : wstate) : outcome wstate :=
  let stack := firstn level (snd st) in
  match back stack with
  | None => UB
  | Some p =>
      let! callee := checked_name (snd k) in
      let! callee := GetNameRef table callee in
      match pget_ p (fst st) with
      | None => UB
      | Some f =>
          let key := (line_disc (fst k), callee) in
          let c := match fchild key f with Some c => c | None => lfs0 end in
          Ok (pput p (set_child key (set_function callee c) f) (fst st), stack ++ [(fst p, snd p ++ [key])])
      end
  end.

(** llvm_profile_writer.cc:143-155 *)
Fixpoint visit_targets (l : lloc) (ts : list (name * Z)) (f : lfs) : outcome lfs :=
  match ts with [] => Ok f | (t, x) :: ts => let! f := add_target l t x f in visit_targets l ts f end.
(** llvm_profile_writer.cc:129-156 *)
Fixpoint visit_body (pos : list (Z * pinfo)) (f : lfs) : outcome lfs :=
  match pos with
  | [] => Ok f
  | (o, i) :: pos =>
      let! f := add_body (line_disc o) (p_count i) f in
      let! f := visit_targets (line_disc o) (p_targets i) f in
      visit_body pos f
  end.
(** llvm_profile_writer.cc:117-157 Visit *)
Definition visit_node (level : nat) (s : symbol) (f : lfs) : outcome lfs :=
  let! f := if (1 <? level)%nat then add_total (s_total s) f else Ok f in
  visit_body (s_pos s) f.
Definition visit (level : nat) (s : symbol) (st : wstate) : outcome wstate :=
  match back (snd st) with
  | None => UB
  | Some p => match pget_ p (fst st) with
              | None => UB
              | Some f => let! f := visit_node level s f in Ok (pput p f (fst st), snd st)
              end
  end.

(** profile_writer.h:138-147 Traverse *)
Fixpoint wtraverse (table : list name) (level : nat) (s : symbol) (st : wstate) {struct s} : outcome wstate :=
  match s with
  | Sym _ _ _ _ cs =>
      let! st := visit (S level) s st in
      (fix go (cs : list (callsite * symbol)) (st : wstate) {struct cs} : outcome wstate :=
         match cs with
         | [] => Ok st
         | (k, c) :: cs =>
             let! st := visit_callsite table (S level) k st in
             let! st := wtraverse table (S level) c st in
             go cs st
         end) cs st
  end.

(** profile_writer.h:124-132 Start, llvm_profile_writer.cc:74-77 ConvertProfiles;
    [tops] is symbol_map.map() *)
Fixpoint wstart (table : list name) (threshold : Z) (tops : list (name * symbol)) (st : wstate) : outcome wstate :=
  match tops with
  | [] => Ok st
  | (n, s) :: tops =>
      if ShouldEmit threshold (s_total s)
      then let! st := visit_top table n s st in
           let! st := wtraverse table 0 s st in
           wstart table threshold tops st
      else wstart table threshold tops st
  end.

(** llvm_profile_writer.cc:186-203 WriteToFile: what is handed to LLVM's writer;
    the name table is that of StringTableUpdater (AfdoModel.v) *)
Definition write_llvm (threshold : Z) (tops : list (name * symbol)) : outcome (list (name * lfs)) :=
  let! table := all_names (start threshold tops) in
  let! st := wstart table threshold tops ([], []) in
  Ok (fst st).

(** What the reader (LlvmReadModel.v) gets once LLVM has stored and loaded it *)
Fixpoint to_fs (f : lfs) : fsamples :=
  match f with
  | LFS n h t b cs => FS n h t b (map (fun kc => (fst (fst kc), to_fs (snd kc))) cs)
  end.
