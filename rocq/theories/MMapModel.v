(** Model of perfdata_reader.{h,cc}: choosing the memory maps of the profiled
    binary, translating runtime addresses, and counting LBR and SPE branches.
    Reading the perf.data file is not modelled: its events are given as lists,
    optional protobuf fields as options. *)
From Verif Require Import Base SymbolModel.

(** perf_data.proto MMapEvent: pid, start, len, pgoff, filename. *)
Record mmap_event := MMapEvent {
  ev_pid : option Z; ev_start : option Z; ev_len : option Z; ev_pgoff : option Z; ev_file : option name }.

(** perfdata_reader.h:29-41 MMapEntry (pid is the key of the enclosing map and
    left out). *)
Record mmap_entry := MMapEntry { mm_addr : Z; mm_size : Z; mm_pgoff : Z; mm_file : name }.

(** std::string operator<. *)
Fixpoint name_ltb (a b : name) : bool :=
  match a, b with
  | _, [] => false
  | [], _ :: _ => true
  | x :: a', y :: b' => if x <? y then true else if x =? y then name_ltb a' b' else false
  end.
(** perfdata_reader.h:43-50 MMapEntry::operator<. *)
Definition mm_ltb (a b : mmap_entry) : bool :=
  if negb (mm_addr a =? mm_addr b) then mm_addr a <? mm_addr b
  else if negb (mm_size a =? mm_size b) then mm_size a <? mm_size b
  else if negb (mm_pgoff a =? mm_pgoff b) then mm_pgoff a <? mm_pgoff b
  else name_ltb (mm_file a) (mm_file b).
(** std::set<MMapEntry>::emplace on the ascending list of elements. *)
Fixpoint mm_emplace (e : mmap_entry) (s : list mmap_entry) : list mmap_entry :=
  match s with
  | [] => [e]
  | x :: s' => if mm_ltb e x then e :: s else if mm_ltb x e then x :: mm_emplace e s' else s
  end.

(** perfdata_reader.h:66 BinaryMMaps. *)
Notation mmaps := (list (Z * list mmap_entry)).

Inductive select_error := Conflict | NoMatch.

(** perfdata_reader.cc:234-252: the loop over the entries of the process;
    [None] is the conflict error, otherwise entry_exists. *)
Fixpoint check_entries (load_addr load_size page_offset : Z) (l : list mmap_entry) (entry_exists : bool) : option bool :=
  match l with
  | [] => Some entry_exists
  | e :: l' =>
      if (mm_addr e =? load_addr) && (mm_size e =? load_size) && (mm_pgoff e =? page_offset)
      then check_entries load_addr load_size page_offset l' true
      else if negb ((u64 (load_addr + load_size) <=? mm_addr e) || (u64 (mm_addr e + mm_size e) <=? load_addr))
      then None
      else check_entries load_addr load_size page_offset l' entry_exists
  end.

(** perfdata_reader.cc:219-231: the fields of an event that is used; [sel] is
    the MMapSelector. *)
Definition used_event (sel : name -> bool) (ev : mmap_event) : option (Z * mmap_entry) :=
  match ev_file ev, ev_start ev, ev_len ev, ev_pid ev with
  | Some f, Some s, Some n, Some p =>
      match f with
      | [] => None
      | _ => if sel f then Some (p, MMapEntry s n (match ev_pgoff ev with Some o => o | None => 0 end) f) else None
      end
  | _, _, _, _ => None
  end.
(** perfdata_reader.cc:213-261: one event. *)
Definition select_step (sel : name -> bool) (m : mmaps) (ev : mmap_event) : mmaps + select_error :=
  match used_event sel ev with
  | None => inl m
  | Some (pid, e) =>
      match aget Z.eqb pid m with
      | Some existing =>
          match check_entries (mm_addr e) (mm_size e) (mm_pgoff e) existing false with
          | None => inr Conflict
          | Some true => inl m
          | Some false => inl (aset Z.eqb pid (mm_emplace e existing) m)
          end
      | None => inl (aset Z.eqb pid [e] m)
      end
  end.
Fixpoint select_loop (sel : name -> bool) (m : mmaps) (evs : list mmap_event) : mmaps + select_error :=
  match evs with
  | [] => inl m
  | ev :: evs' => match select_step sel m ev with inl m' => select_loop sel m' evs' | inr e => inr e end
  end.
(** perfdata_reader.cc:164-279 SelectMMaps, from line 212 on (reading the file
    and choosing the selector come before). *)
Definition SelectMMaps (sel : name -> bool) (evs : list mmap_event) : mmaps + select_error :=
  match select_loop sel [] evs with
  | inl [] => inr NoMatch
  | r => r
  end.

(** llvm_propeller_binary_content.h:27-31 Segment; is_pie and segments of
    BinaryContent. *)
Record segment := Segment { sg_offset : Z; sg_vaddr : Z; sg_memsz : Z }.
Record binary := Binary { bn_pie : bool; bn_segments : list segment }.

(** binary_address_branch.h kInvalidBinaryAddress; perfdata_reader.h:97
    kKernelPid. *)
Definition kInvalid : Z := w64 - 1.
Definition kKernelPid : Z := w32 - 1.

(** perfdata_reader.cc:293-295: the last covering entry wins. *)
Definition find_mmap (addr : Z) (l : list mmap_entry) : option mmap_entry :=
  fold_left (fun r p => if (mm_addr p <=? addr) && (addr <? u64 (mm_addr p + mm_size p)) then Some p else r) l None.
(** perfdata_reader.cc:308-337: the loop over the segments; [first] is the
    offset of the first segment once it is known (kernel only). *)
Fixpoint segment_loop (is_kernel : bool) (file_offset : Z) (first : option Z) (l : list segment) : Z :=
  match l with
  | [] => kInvalid
  | s :: l' =>
      let off := if is_kernel
                 then match first with None => 0 | Some f => u64 (sg_offset s - f) end
                 else sg_offset s in
      let first' := match first with None => Some (sg_offset s) | Some f => Some f end in
      if (off <=? file_offset) && (file_offset <? u64 (off + sg_memsz s))
      then u64 (u64 (file_offset - off) + sg_vaddr s)
      else segment_loop is_kernel file_offset first' l'
  end.
(** perfdata_reader.cc:289-343 RuntimeAddressToBinaryAddress. *)
Definition RuntimeAddressToBinaryAddress (m : mmaps) (bn : binary) (pid addr : Z) : Z :=
  match aget Z.eqb pid m with
  | None => kInvalid
  | Some l =>
      match find_mmap addr l with
      | None => kInvalid
      | Some mm =>
          let is_kernel := pid =? kKernelPid in
          if negb is_kernel && negb (bn_pie bn) then addr
          else
            let file_offset := if is_kernel then u64 (addr - mm_addr mm)
                               else u64 (u64 (addr - mm_addr mm) + mm_pgoff mm) in
            segment_loop is_kernel file_offset None (bn_segments bn)
      end
  end.

(** perfdata_reader.cc:453-455 IsKernelMode. *)
Definition IsKernelMode (m : mmaps) : bool :=
  match aget Z.eqb kKernelPid m with Some _ => true | None => false end.

(** lbr_aggregation.h / branch_frequencies.h: counters (int64_t, unbounded
    here); ++m[k]. *)
Section Counters.
  Context {K : Type} (eqb : K -> K -> bool).
  Definition cget (k : K) (m : list (K * Z)) : Z := match aget eqb k m with Some v => v | None => 0 end.
  Definition cinc (k : K) (m : list (K * Z)) : list (K * Z) := aset eqb k (cget k m + 1) m.
End Counters.
Definition addr2_eqb (a b : Z * Z) : bool := (fst a =? fst b) && (snd a =? snd b).
Notation lbr_agg := (list ((Z * Z) * Z) * list ((Z * Z) * Z))%type.

(** perf_data.proto SampleEvent: pid, branch_stack (from_ip, to_ip), the most
    recent branch first. *)
Record sample := Sample { sa_pid : option Z; sa_stack : list (Z * Z) }.

(** perfdata_reader.cc:406-422: the loop over the stack, oldest entry first. *)
Fixpoint lbr_loop (tr : Z -> Z) (last_to : Z) (entries : list (Z * Z)) (r : lbr_agg) : lbr_agg :=
  match entries with
  | [] => r
  | (f, t) :: entries' =>
      let from := tr f in
      let to := tr t in
      let '(br, ft) := r in
      let br' := cinc addr2_eqb (from, to) br in
      let ft' := if negb (last_to =? kInvalid) && (last_to <=? from) then cinc addr2_eqb (last_to, from) ft else ft in
      lbr_loop tr to entries' (br', ft')
  end.
(** perfdata_reader.cc:394-404: the process a sample is attributed to. *)
Definition sample_pid (m : mmaps) (s : sample) : option Z :=
  if IsKernelMode m then Some kKernelPid
  else match sa_pid s with
       | Some p => match aget Z.eqb p m with Some _ => Some p | None => None end
       | None => None
       end.
(** perfdata_reader.cc:390-424 AggregateLBR. *)
Definition AggregateLBR (m : mmaps) (bn : binary) (samples : list sample) (r : lbr_agg) : lbr_agg :=
  fold_left (fun r s =>
    match sample_pid m s with
    | None => r
    | Some pid => lbr_loop (RuntimeAddressToBinaryAddress m bn pid) kInvalid (rev (sa_stack s)) r
    end) samples r.

(** quipper::ArmSpeDecoder::Record as far as AggregateSpe reads it, with the
    pid found for it (records without one are skipped, perfdata_reader.cc:383-384). *)
Record spe_record := SpeRecord {
  sr_pid : Z; sr_retired : bool; sr_branch : bool; sr_cond : bool; sr_not_taken : bool; sr_ip : Z; sr_target : Z }.
Notation spe_agg := (list ((Z * Z) * Z) * list (Z * Z))%type.
(** perfdata_reader.cc:430-450: one record. *)
Definition spe_step (m : mmaps) (bn : binary) (r : spe_agg) (s : spe_record) : spe_agg :=
  let pid := if IsKernelMode m then kKernelPid else u32 (sr_pid s) in
  match aget Z.eqb pid m with
  | None => r
  | Some _ =>
      if negb (sr_retired s) || negb (sr_branch s) then r
      else
        let from := RuntimeAddressToBinaryAddress m bn pid (sr_ip s) in
        if sr_cond s && sr_not_taken s then (fst r, cinc Z.eqb from (snd r))
        else (cinc addr2_eqb (from, RuntimeAddressToBinaryAddress m bn pid (sr_target s)) (fst r), snd r)
  end.
Definition AggregateSpe (m : mmaps) (bn : binary) (records : list spe_record) (r : spe_agg) : spe_agg :=
  fold_left (spe_step m bn) records r.
