(** What a Propeller run over perf profiles promises, in terms of the options,
    the files and the binary. *)
From Coq Require Import Permutation.
From Verif Require Import Base SymbolModel MMapModel MMapSpec BinaryIdModel CfgFreqModel GenModel.

(** * Which maps of a profile belong to the binary *)
(** The text of a build id. *)
Definition hex_digit (v c : Z) : Prop := (0 <= v < 10 /\ c = 48 + v) \/ (10 <= v < 16 /\ c = 97 + (v - 10)).
Inductive hex_text : list Z -> name -> Prop :=
| hx_nil : hex_text [] []
| hx_byte hi lo c d l t : hex_digit hi c -> hex_digit lo d -> hex_text l t -> hex_text ((16 * hi + lo) :: l) (c :: d :: t).
Definition has_prefix (pre n : name) : Prop := exists r, n = pre ++ r.
(** A build-id record of the profile gives file [n] the build id [bid]. *)
Definition listed (d : profile) (bid n : name) : Prop :=
  (exists h, In (Some n, Some h) (pf_build_ids d) /\ hex_text h bid) /\ n <> [] /\
  ~ has_prefix [47;97;110;111;110;95;104;117;103;101;112;97;103;101] n /\ ~ has_prefix [91;97;110;111;110;58] n.
(** The names under which the binary is looked for: the name given by the user;
    the name of the binary if build ids are to be ignored; else the names the
    profile lists for the build id of the binary. *)
Inductive looked_for (o : options) (bid : name) (d : profile) : list name -> Prop :=
| lf_user n : o_profiled o = Some n -> n <> [] -> looked_for o bid d [n]
| lf_binary : o_profiled o = None -> o_ignore_build_id o = true -> o_binary o <> [] -> looked_for o bid d [o_binary o]
| lf_build_id ns :
    o_profiled o = Some [] \/ (o_profiled o = None /\ (o_ignore_build_id o = false \/ o_binary o = [])) ->
    bid <> [] -> ns <> [] -> NoDup ns -> (forall n, In n ns <-> listed d bid n) -> looked_for o bid d ns.
(** Profile [d] can be used, and [m] are the maps of the binary in it (see C39
    for SelectMMaps, C51 for MMapSelector). *)
Definition used_with (W : world) (o : options) (bid : name) (d : profile) (m : mmaps) : Prop :=
  exists ns, looked_for o bid d ns /\ SelectMMaps (MMapSelector (w_absolute W) (w_filename W) ns) (pf_events d) = inl m.

(** * The profiles that count *)
Definition readable (W : world) (f : name) : Prop := w_file W f <> None.
Definition usable (W : world) (o : options) (bid f : name) (d : profile) (m : mmaps) : Prop :=
  w_file W f = Some (Some d) /\ used_with W o bid d m.
(** The usable profiles among the files, in order. *)
Inductive usable_among (W : world) (o : options) (bid : name) : list name -> list (profile * mmaps) -> Prop :=
| ua_nil : usable_among W o bid [] []
| ua_use f fs d m us : usable W o bid f d m -> usable_among W o bid fs us -> usable_among W o bid (f :: fs) ((d, m) :: us)
| ua_skip f fs us : (forall d m, ~ usable W o bid f d m) -> usable_among W o bid fs us -> usable_among W o bid (f :: fs) us.

(** * Counts *)
Fixpoint total {A} (g : A -> Z) (l : list A) : Z := match l with [] => 0 | x :: l' => g x + total g l' end.
(** The count a list of counters has for a key. *)
Definition count_in {K} (eqb : K -> K -> bool) (cs : list (K * Z)) (k : K) : Z := total (fun c => if eqb (fst c) k then snd c else 0) cs.
(** What one profile says about a branch and about a fall-through range: stack
    entries, and consecutive stack entries, of the samples of processes that map
    the binary; addresses are those of the binary (C39, C40). *)
Definition same (a b : Z * Z) : bool := (fst a =? fst b) && (snd a =? snd b).
Definition branch_samples (bn : binary) (k : Z * Z) (u : profile * mmaps) : Z :=
  sum_samples (snd u) (fun pid stack =>
    let tr := RuntimeAddressToBinaryAddress (snd u) bn pid in
    count (fun e => same k (tr (fst e), tr (snd e))) stack) (pf_samples (fst u)).
Definition range_samples (bn : binary) (k : Z * Z) (u : profile * mmaps) : Z :=
  sum_samples (snd u) (fun pid stack =>
    let tr := RuntimeAddressToBinaryAddress (snd u) bn pid in
    count (fun p => let '(older, newer) := p in
      negb (tr (snd older) =? kInvalid) && (tr (snd older) <=? tr (fst newer)) && same k (tr (snd older), tr (fst newer))) (consecutive stack))
    (pf_samples (fst u)).
(** The process of an SPE record, if the record counts. *)
Definition spe_counts (m : mmaps) (s : spe_record) : option Z :=
  if sr_retired s && sr_branch s then
    if mapped m kKernelPid then Some kKernelPid else if mapped m (u32 (sr_pid s)) then Some (u32 (sr_pid s)) else None
  else None.
Definition taken_samples (bn : binary) (k : Z * Z) (u : profile * mmaps) : Z :=
  count (fun s => match spe_counts (snd u) s with
                  | Some pid => let tr := RuntimeAddressToBinaryAddress (snd u) bn pid in
                      negb (sr_cond s && sr_not_taken s) && same k (tr (sr_ip s), tr (sr_target s))
                  | None => false end) (pf_spe (fst u)).
Definition not_taken_samples (bn : binary) (a : Z) (u : profile * mmaps) : Z :=
  count (fun s => match spe_counts (snd u) s with
                  | Some pid => (sr_cond s && sr_not_taken s) && (a =? RuntimeAddressToBinaryAddress (snd u) bn pid (sr_ip s))
                  | None => false end) (pf_spe (fst u)).
(** A list of counters: each key once, positive counts, and the count of each
    key is the given number. *)
Record counts {K} (eqb : K -> K -> bool) (cs : list (K * Z)) (expected : K -> Z) : Prop := {
  cn_keys : NoDup (map fst cs); cn_positive : forall c, In c cs -> 0 < snd c; cn_count : forall k, count_in eqb cs k = expected k }.

(** The hash containers may be iterated in any order. *)
Record world_good (W : world) : Prop := {
  wg_names : forall l, Permutation (w_names W l) l; wg_counters : forall l, Permutation (w_counters W l) l; wg_by_address : forall l, Permutation (w_by_address W l) l }.
(** With names of one kind, the order of a set of names does not matter
    (C51_mixed_names_refuted). *)
Definition names_alike (W : world) (o : options) (bid : name) (files : list name) : Prop :=
  forall f d ns n n', In f files -> w_file W f = Some (Some d) -> looked_for o bid d ns -> In n ns -> In n' ns -> w_absolute W n = w_absolute W n'.
(** Build ids are bytes. *)
Definition ids_good (W : world) (files : list name) : Prop :=
  forall f d n h x, In f files -> w_file W f = Some (Some d) -> In (n, Some h) (pf_build_ids d) -> In x h -> 0 <= x < 256.
(** Sampled addresses are 64-bit values. *)
Definition samples_good (W : world) (files : list name) : Prop :=
  forall f d, In f files -> w_file W f = Some (Some d) ->
    (forall s e, In s (pf_samples d) -> In e (sa_stack s) -> word (fst e) /\ word (snd e)) /\
    (forall s, In s (pf_spe d) -> word (sr_ip s) /\ word (sr_target s)).
(** The input files as a whole. *)
Record files_good (W : world) (o : options) (bid : name) (files : list name) : Prop := {
  fg_world : world_good W; fg_ids : ids_good W files; fg_alike : names_alike W o bid files; fg_samples : samples_good W files }.
(** The kind of a profile: unspecified stands for LBR. *)
Definition kind (t : Z) : Z := if t =? 0 then 1 else t.
