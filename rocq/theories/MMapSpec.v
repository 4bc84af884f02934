(** What memory-map selection and address translation are supposed to do. *)
From Verif Require Import Base SymbolModel MMapModel.

(** The fields of an event are 64-bit values. *)
Definition word (x : Z) : Prop := 0 <= x < w64.
Definition opt_word (x : option Z) : Prop := match x with Some v => word v | None => True end.
Definition event_ok (ev : mmap_event) : Prop :=
  opt_word (ev_start ev) /\ opt_word (ev_len ev) /\ opt_word (ev_pgoff ev).

(** A map covers the addresses from its start up to its end; one that reaches
    or passes the end of the address space covers nothing. *)
Definition covers (e : mmap_entry) (a : Z) : Prop :=
  mm_addr e <= a < mm_addr e + mm_size e /\ mm_addr e + mm_size e < w64.
Definition region (e : mmap_entry) : Z * Z * Z := (mm_addr e, mm_size e, mm_pgoff e).
(** An event of process [pid] that names the binary and carries the map [e]. *)
Definition maps_event (sel : name -> bool) (ev : mmap_event) (pid : Z) (e : mmap_entry) : Prop :=
  ev_pid ev = Some pid /\ ev_start ev = Some (mm_addr e) /\ ev_len ev = Some (mm_size e) /\
  ev_file ev = Some (mm_file e) /\ mm_file e <> [] /\ sel (mm_file e) = true /\
  mm_pgoff e = match ev_pgoff ev with Some o => o | None => 0 end.
(** Two different regions meet. *)
Definition overlap (a b : mmap_entry) : Prop :=
  mm_addr a < mm_addr b + mm_size b /\ mm_addr b < mm_addr a + mm_size a.
Definition conflicting (sel : name -> bool) (evs : list mmap_event) : Prop :=
  exists ev1 ev2 pid e1 e2, In ev1 evs /\ In ev2 evs /\
    maps_event sel ev1 pid e1 /\ maps_event sel ev2 pid e2 /\ region e1 <> region e2 /\ overlap e1 e2.
(** No selected map reaches the end of the address space. *)
Definition no_wrap (sel : name -> bool) (evs : list mmap_event) : Prop :=
  forall ev pid e, In ev evs -> maps_event sel ev pid e -> mm_addr e + mm_size e < w64.
Definition maps_of (m : mmaps) (pid : Z) : list mmap_entry :=
  match aget Z.eqb pid m with Some l => l | None => [] end.

(** Segments as the translation sees them: for the kernel, offsets count from
    the first executable segment. *)
Definition seg_base (kernel : bool) (segs : list segment) : Z :=
  if kernel then match segs with s :: _ => sg_offset s | [] => 0 end else 0.
(** The segment at position [i] is the first one holding file offset [off]. *)
Definition first_segment (kernel : bool) (segs : list segment) (off : Z) (s : segment) : Prop :=
  exists before after, segs = before ++ s :: after /\
    let b := seg_base kernel segs in
    sg_offset s - b <= off < sg_offset s - b + sg_memsz s /\
    forall x, In x before -> ~ (sg_offset x - b <= off < sg_offset x - b + sg_memsz x).
(** File contents and loaded image lie in the 64-bit space; the kernel's first
    executable segment has the lowest offset. *)
Definition binary_sane (bn : binary) : Prop :=
  forall s, In s (bn_segments bn) ->
    0 <= sg_offset s /\ 0 <= sg_memsz s /\ 0 <= sg_vaddr s /\
    sg_offset s + sg_memsz s < w64 /\ sg_vaddr s + sg_memsz s < w64 /\
    seg_base true (bn_segments bn) <= sg_offset s.
Definition entry_sane (e : mmap_entry) : Prop :=
  0 <= mm_addr e /\ 0 <= mm_size e < w64 /\ 0 <= mm_pgoff e /\ mm_pgoff e + mm_size e < w64 /\ mm_addr e < w64.

(** Runtime address [a] of process [pid] is address [r] of the binary. *)
Inductive translated (m : mmaps) (bn : binary) (pid a : Z) : Z -> Prop :=
| tr_absolute e :
    In e (maps_of m pid) -> covers e a -> pid <> kKernelPid -> bn_pie bn = false ->
    translated m bn pid a a
| tr_relative e s :
    In e (maps_of m pid) -> covers e a -> pid <> kKernelPid -> bn_pie bn = true ->
    first_segment false (bn_segments bn) (a - mm_addr e + mm_pgoff e) s ->
    translated m bn pid a (a - mm_addr e + mm_pgoff e - sg_offset s + sg_vaddr s)
| tr_kernel e s :
    In e (maps_of m pid) -> covers e a -> pid = kKernelPid ->
    first_segment true (bn_segments bn) (a - mm_addr e) s ->
    translated m bn pid a (a - mm_addr e - (sg_offset s - seg_base true (bn_segments bn)) + sg_vaddr s).

(** ** Counting *)
(** Consecutive entries of a branch stack, (older, newer): the most recent
    branch is listed first. *)
Definition consecutive (stack : list (Z * Z)) : list ((Z * Z) * (Z * Z)) := combine (tl stack) stack.
Definition count {A} (p : A -> bool) (l : list A) : Z := zlen (filter p l).
(** The process a sample counts for: the kernel's pseudo process if the kernel
    was profiled, else the sampled process if the binary is mapped there. *)
Definition mapped (m : mmaps) (pid : Z) : bool := existsb (Z.eqb pid) (map fst m).
Definition process_of (m : mmaps) (pid : option Z) : option Z :=
  if mapped m kKernelPid then Some kKernelPid
  else match pid with Some p => if mapped m p then Some p else None | None => None end.
(** Sum over the samples that count. *)
Fixpoint sum_samples (m : mmaps) (f : Z -> list (Z * Z) -> Z) (l : list sample) : Z :=
  match l with
  | [] => 0
  | s :: l' => (match process_of m (sa_pid s) with Some pid => f pid (sa_stack s) | None => 0 end) + sum_samples m f l'
  end.
