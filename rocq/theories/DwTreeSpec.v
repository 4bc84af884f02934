(** Functions and inlined calls as debugging entries describe them (DWARF 3.3),
    and the stack of an address. *)
From Coq Require Import Sorted Permutation.
From Verif Require Import Base DwLineModel DwTreeModel.

(** *** What the attributes of one entry say *)
Record info := { i_name : list Z; i_ranges : list (Z * Z); i_line : Z; i_discr : Z; i_origin : Z; i_spec : Z; i_call : option (list Z * list Z) }.
Record node := { n_offset : Z; n_inlined : bool; n_comp : list Z; n_info : info }.
(** A forest: the first tree (an entry and the forest of the entries inside it),
    and the other trees. *)
Inductive forest := FNil | FCons (n : node) (inner rest : forest).

Section Attributes.
Context (cu_offset : Z) (names : cu) (inlined : bool) (attrs : list attr).
Definition only (a : attr) (same : attr -> bool) : Prop := exists l1 l2, attrs = l1 ++ a :: l2 /\ existsb same (l1 ++ l2) = false.
Definition absent (same : attr -> bool) : Prop := existsb same attrs = false.
Definition is_linkage a := match a with ALinkageName _ => true | _ => false end.
Definition is_aname a := match a with AName _ => true | _ => false end.
Definition is_call_file a := match a with ACallFile _ _ => true | _ => false end.
Definition is_call_line a := match a with ACallLine _ _ => true | _ => false end.
Definition is_decl_line a := match a with ADeclLine _ _ => true | _ => false end.
Definition is_discr a := match a with ADiscriminator _ => true | _ => false end.
Definition is_origin a := match a with AAbstractOrigin _ _ => true | _ => false end.
Definition is_spec a := match a with ASpecification _ _ => true | _ => false end.
Definition is_pc a := match a with ALowPc _ | AHighPc _ _ | ARanges _ => true | _ => false end.
Definition is_comp a := match a with ACompDir _ => true | _ => false end.
Definition reference (abs : bool) (n : Z) : Z := if abs then n else cu_offset + n.

(** the linkage name, otherwise the name *)
Definition has_name (s : list Z) : Prop :=
  (only (ALinkageName s) is_linkage /\ s <> []) \/ (absent is_linkage /\ only (AName s) is_aname) \/ (absent is_linkage /\ absent is_aname /\ s = []).
(** no address; or a list of ranges (here such that they do not overlap, the order
    does not matter); or the first address and the end or the length *)
Definition has_ranges (rs : list (Z * Z)) : Prop :=
  (absent is_pc /\ rs = []) \/
  (exists l, only (ARanges l) is_pc /\ Permutation l rs /\ StronglySorted (fun r r' => snd r <= fst r') rs /\ Forall (fun r => fst r < snd r) rs) \/
  (exists l1 l2 l3 lo h off, attrs = l1 ++ ALowPc lo :: l2 ++ AHighPc h off :: l3 /\ existsb is_pc (l1 ++ l2 ++ l3) = false /\
     rs = [(lo, if off then lo + h else h)] /\ lo + h < 2 ^ 64 /\ 0 <= lo /\ 0 <= h).
(** the line of the declaration, for an inlined call that of the call *)
Definition has_line (n : Z) : Prop :=
  if inlined then (exists i, only (ACallLine i n) is_call_line) \/ (absent is_call_line /\ n = 0)
  else absent is_call_line /\ (only (ADeclLine false n) is_decl_line \/ (absent is_decl_line /\ n = 0)).
Definition has_discr (n : Z) : Prop := only (ADiscriminator n) is_discr \/ (absent is_discr /\ n = 0).
Definition has_origin (o : Z) : Prop := (exists abs n, only (AAbstractOrigin abs n) is_origin /\ o = reference abs n) \/ (absent is_origin /\ o = 0).
Definition has_spec (o : Z) : Prop := (exists abs n, only (ASpecification abs n) is_spec /\ o = reference abs n) \/ (absent is_spec /\ o = 0).
(** directory and file of the call: files are numbered from 1 *)
Definition has_call (p : option (list Z * list Z)) : Prop :=
  (absent is_call_file /\ p = None) \/
  exists i n d f dir, only (ACallFile i n) is_call_file /\ 0 < n < 2 ^ 63 /\ nth_error (files names) (Z.to_nat n) = Some (d, f) /\
    0 <= d < 2 ^ 31 /\ nth_error (dirs names) (Z.to_nat d) = Some dir /\ p = Some (dir, f).
Definition means (i : info) : Prop :=
  absent is_comp /\ has_name (i_name i) /\ has_ranges (i_ranges i) /\ has_line (i_line i) /\ has_discr (i_discr i) /\
  has_origin (i_origin i) /\ has_spec (i_spec i) /\ has_call (i_call i) /\
  0 <= i_line i < 2 ^ 32 /\ 0 <= i_discr i < 2 ^ 32 /\ 0 <= i_origin i < 2 ^ 64 /\ 0 <= i_spec i < 2 ^ 64.
End Attributes.

(** Entries and the forest of their functions and inlined calls; other entries
    (blocks, namespaces, classes) only matter for what is inside them. *)
Fixpoint fapp (a b : forest) : forest := match a with FNil => b | FCons n k r => FCons n k (fapp r b) end.
Section Reads.
Context (cu_offset : Z) (names : cu) (comp : list Z).
Inductive reads : list die -> forest -> Prop :=
| rd_nil : reads [] FNil
| rd_sub off attrs kids l i k r : means cu_offset names false attrs i -> reads kids k -> reads l r ->
    reads (Die off TagSubprogram attrs kids :: l) (FCons {| n_offset := off; n_inlined := false; n_comp := comp; n_info := i |} k r)
| rd_inl off attrs kids l i k r : means cu_offset names true attrs i -> reads kids k -> reads l r ->
    reads (Die off TagInlined attrs kids :: l) (FCons {| n_offset := off; n_inlined := true; n_comp := comp; n_info := i |} k r)
| rd_other off attrs kids l k r : reads kids k -> reads l r -> reads (Die off TagOther attrs kids :: l) (fapp k r).
End Reads.
(** A unit: its offset, the names of its line table, its entry. *)
Inductive reads_unit : Z * cu * die -> forest -> Prop :=
| ru offset names off attrs kids comp f :
    only attrs (ACompDir comp) is_comp ->
    Forall (fun a => match a with ACallFile true _ | ACallLine true _ => False | _ => True end) attrs ->
    reads offset names comp kids f -> reads_unit (offset, names, Die off TagUnit attrs kids) f.
Inductive reads_units : list (Z * cu * die) -> forest -> Prop :=
| rus_nil : reads_units [] FNil
| rus_cons u us f g : reads_unit u f -> reads_units us g -> reads_units (u :: us) (fapp f g).

(** *** Where the code is *)
Definition ranges (n : node) : list (Z * Z) := i_ranges (n_info n).
Definition covers (x : Z) (n : node) : Prop := exists r, In r (ranges n) /\ fst r <= x < snd r.
Definition within (l outer : list (Z * Z)) : Prop := forall r, In r l -> exists q, In q outer /\ fst q <= fst r /\ snd r <= snd q.
Definition disjoint (l l' : list (Z * Z)) : Prop := forall r r', In r l -> In r' l' -> snd r <= fst r' \/ snd r' <= fst r.
Fixpoint tops (f : forest) : list node := match f with FNil => [] | FCons n _ r => n :: tops r end.
Fixpoint nodes (f : forest) : list node := match f with FNil => [] | FCons n k r => n :: nodes k ++ nodes r end.
Fixpoint trees (f : forest) : list (node * forest) := match f with FNil => [] | FCons n k r => (n, k) :: trees r end.
(** Inlined calls lie within the code they are inlined in, and calls side by side
    do not overlap. *)
Fixpoint nested (outer : list (Z * Z)) (f : forest) : Prop :=
  match f with
  | FNil => True
  | FCons n k r => n_inlined n = true /\ (forall q, In q (ranges n) -> fst q < snd q) /\ within (ranges n) outer /\ nested (ranges n) k /\
      Forall (fun m => disjoint (ranges n) (ranges m)) (tops r) /\ nested outer r
  end.
Section Good.
Context (vaddr : Z).
(** A function that is in the binary. *)
Definition live (t : node * forest) : Prop :=
  n_inlined (fst t) = false /\ ranges (fst t) <> [] /\ Forall (fun r => vaddr <= fst r < snd r /\ fst r <> 0) (ranges (fst t)) /\ nested (ranges (fst t)) (snd t).
(** A function without code (a declaration, an inline function that has no copy of
    its own) or one that the linker has dropped. *)
Definition dead (t : node * forest) : Prop :=
  n_inlined (fst t) = false /\
  ((forall r, In r (ranges (fst t)) -> fst r = 0) \/ ((exists r, In r (ranges (fst t)) /\ fst r < vaddr) /\ Forall (fun n => n_inlined n = true) (nodes (snd t)))).
Fixpoint good_forest (f : forest) : Prop :=
  match f with
  | FNil => True
  | FCons n k r => (dead (n, k) \/ (live (n, k) /\ forall t, In t (trees r) -> live t -> disjoint (ranges n) (ranges (fst t)))) /\ good_forest r
  end.
(** The entries an address lies in, innermost first. *)
Inductive inside (x : Z) : forest -> list node -> Prop :=
| in_here n k r : covers x n -> (forall m, In m (tops k) -> ~ covers x m) -> inside x (FCons n k r) [n]
| in_deeper n k r p : covers x n -> inside x k p -> inside x (FCons n k r) (p ++ [n])
| in_next n k r p : inside x r p -> inside x (FCons n k r) p.
Inductive stack_at (x : Z) (f : forest) : list node -> Prop :=
| sa t p : In t (trees f) -> live t -> inside x (FCons (fst t) (snd t) FNil) p -> stack_at x f p.
Definition nowhere (x : Z) (f : forest) : Prop := forall t, In t (trees f) -> live t -> ~ covers x (fst t).
End Good.

(** *** Names *)
Section Names.
Context (f : forest).
Definition at_offset (o : Z) (n : node) : Prop := In n (nodes f) /\ n_offset n = o.
(** The declaration of an entry: the entry itself if it has a name and a line, otherwise
    that of the specification, otherwise that of the abstract origin, if there
    are such references. *)
Inductive declared : node -> node -> Prop :=
| de_self n : i_name (n_info n) <> [] -> i_line (n_info n) <> 0 -> declared n n
| de_end n : i_spec (n_info n) = 0 -> i_origin (n_info n) = 0 -> declared n n
| de_spec n m d : i_name (n_info n) = [] \/ i_line (n_info n) = 0 -> i_spec (n_info n) <> 0 -> at_offset (i_spec (n_info n)) m -> declared m d -> declared n d
| de_origin n m d : i_name (n_info n) = [] \/ i_line (n_info n) = 0 -> i_spec (n_info n) = 0 -> i_origin (n_info n) <> 0 -> at_offset (i_origin (n_info n)) m -> declared m d -> declared n d.
Inductive origin : node -> node -> Prop :=
| or_self n : i_origin (n_info n) = 0 -> origin n n
| or_ref n m : i_origin (n_info n) <> 0 -> at_offset (i_origin (n_info n)) m -> origin n m.
(** Name and first line of the function an entry is an instance of. *)
Inductive function_is (n : node) : list Z -> Z -> Prop :=
| fi d o : declared n d -> origin n o ->
    function_is n (i_name (n_info d)) (if i_line (n_info o) =? 0 then i_line (n_info d) else i_line (n_info o)).
(** Relative directories are relative to the directory of the compilation. *)
Definition full (comp dir : list Z) : list Z :=
  match dir with
  | 47 :: _ => dir
  | _ => match rev comp with [] => dir | 47 :: _ => comp ++ dir | _ => comp ++ 47 :: dir end
  end.
(** The frames above the innermost one: the function a call was inlined in, and where
    the call is. *)
Inductive call_frames : list node -> list source -> Prop :=
| cf_root n : n_inlined n = false -> call_frames [n] []
| cf_call c n l nm line dir file fs : n_inlined c = true -> function_is n nm line -> i_call (n_info c) = Some (dir, file) -> call_frames (n :: l) fs ->
    call_frames (c :: n :: l) ((Some nm, full (n_comp c) dir, file, if line =? 0 then i_line (n_info c) else line, i_line (n_info c), i_discr (n_info c)) :: fs).
(** The stack of an address whose innermost position is known. *)
Inductive frames (place : list Z * list Z * Z * Z) : list node -> list source -> Prop :=
| fr n l nm line fs : function_is n nm line -> call_frames (n :: l) fs ->
    frames place (n :: l) ((Some nm, full (n_comp n) (fst (fst (fst place))), snd (fst (fst place)), line, snd (fst place), snd place) :: fs).
End Names.
