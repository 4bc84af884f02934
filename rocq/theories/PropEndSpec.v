(** What a Propeller run promises about the cluster file, in terms of the
    binary, the samples and the options. *)
From Coq Require Import Sorted Permutation String Ascii.
From Verif Require Import Base SymbolModel MapperModel MapperSpec CfgFreqModel CfgBuildModel CfgBuildSpec ForcedModel ChainBuildModel ChainBuildSpec LayoutModel WriterModel WriterSpec PropEndModel.

Notation blk_bb mp i := (bh_bb (nth i (mp_handles mp) no_handle)) (only parsing).

(** A block was executed: some sample enters or leaves it. *)
Definition executed (mp : mapper) (branches falls : list counter) (i : nat) : Prop :=
  exists j, (j < blk_count mp)%nat /\
    (expected_weight mp branches falls i j <> 0 \/ expected_weight mp branches falls j i <> 0).
(** A function in which a block was executed. *)
Definition hot_function (mp : mapper) (branches falls : list counter) (f : nat) : Prop :=
  exists i, (i < blk_count mp)%nat /\ blk_func mp i = f /\ executed mp branches falls i.
(** The blocks of such a function that are to be listed: with splitting, the
    executed ones, the entry if functions are laid out one by one, and all
    landing pads if one of them was executed; without splitting, all. *)
Definition wanted (B : binary) (S : settings) (mp : mapper) (branches falls : list counter) (i : nat) : Prop :=
  s_split_functions S = false \/ executed mp branches falls i \/
  (s_ifr S = false /\ blk_bb mp i = 0%nat) \/
  (x_lp B (blk_handle mp i) = true /\
   exists k, (k < blk_count mp)%nat /\ blk_func mp k = blk_func mp i /\ x_lp B (blk_handle mp k) = true /\ executed mp branches falls k).

(** The entry of function [f]: its names and module, each wanted block once and
    no others, clusters not empty, the entry block only in front. *)
Record function_entry (B : binary) (S : settings) (mp : mapper) (branches falls : list counter) (f : nat) (e : fentry) : Prop := {
  fe_names : f_names e = aliases_of (x_info B) f;
  fe_module : f_module e = x_module B f;
  fe_paths : f_paths e = [];
  fe_once : NoDup (concat (f_clusters e));
  fe_blocks : forall b, In b (concat (f_clusters e)) <->
    exists i, (i < blk_count mp)%nat /\ blk_func mp i = f /\ wanted B S mp branches falls i /\ b = (x_bb B (blk_handle mp i), 0);
  fe_nonempty : forall c, In c (f_clusters e) -> c <> [];
  fe_entry : forall c, In c (f_clusters e) -> ~ In (x_bb B (BbHandle f 0), 0) (tl c) }.

(** The section of a function, and the byte order of names. *)
Definition section_name (B : binary) (f : nat) : name := match aget Nat.eqb f (x_info B) with Some s => si_section s | None => [] end.
Inductive before : name -> name -> Prop :=
| bf_end x b : before [] (x :: b)
| bf_less x y a b : x < y -> before (x :: a) (y :: b)
| bf_next x a b : before a b -> before (x :: a) (x :: b).
(** The cluster file: one entry for each hot function, sections by name, and
    the functions of a section by number. *)
Definition cluster_file (B : binary) (S : settings) (mp : mapper) (branches falls : list counter) (es : list fentry) : Prop :=
  exists fl : list nat,
    (forall f, In f fl <-> hot_function mp branches falls f) /\
    StronglySorted (fun f g => before (section_name B f) (section_name B g) \/ (section_name B f = section_name B g /\ (f < g)%nat)) fl /\
    Forall2 (function_entry B S mp branches falls) fl es.

(** * The input *)
Record binary_good (v : version) (B : binary) : Prop := {
  bg_ok : binary_ok (x_funcs B);
  bg_blocks : forall f, (f < List.length (x_funcs B))%nat -> (0 < nents (x_funcs B) f)%nat;
  bg_first : forall f, (f < List.length (x_funcs B))%nat -> be_offset (ent (x_funcs B) f 0) = 0;
  bg_size : fold_right (fun f s => fold_right (fun e t => be_size e + t) 0 (fm_entries f) + s) 0 (x_funcs B) < 2 ^ 31;
  bg_ids : forall f a b, (f < List.length (x_funcs B))%nat -> (a < nents (x_funcs B) f)%nat -> (b < nents (x_funcs B) f)%nat ->
    x_bb B (BbHandle f a) = x_bb B (BbHandle f b) -> a = b;
  bg_id : forall h, 0 <= x_bb B h;
  bg_names : forall f s, aget Nat.eqb f (x_info B) = Some s -> si_aliases s <> [] /\ free [10] (si_section s) /\
    forall n, In n (si_aliases s) -> free [10; 32] n /\ (v = V0 -> free [33; 47] n);
  bg_module : forall f m, x_module B f = Some m -> free [10; 32] m }.
(** All names of functions, and names that are not mixed up with the names of
    parts: ".__part.N" and ".cold" are appended for parts of functions. *)
Definition all_names (B : binary) : list text := flat_map (fun p => si_aliases (snd p)) (x_info B).
Record clean_names (B : binary) : Prop := {
  cn_once : forall f s, aget Nat.eqb f (x_info B) = Some s -> NoDup (si_aliases s);
  cn_part : forall n m k, In n (all_names B) -> In m (all_names B) -> n <> m ++ bytes ".__part." ++ decimal k;
  cn_cold : forall n m, In n (all_names B) -> In m (all_names B) -> n <> m ++ bytes ".cold" }.
(** Hash containers may be iterated in any order; scores are not negative; the
    size threshold of the clusters is in bounds. *)
Record settings_good (S : settings) : Prop := {
  sg_ord : forall l, Permutation (s_ord S l) l; sg_names : any_order (s_names S); sg_falls : any_order (s_falls S);
  sg_cfgs : any_order (s_cfgs S); sg_addr : any_order (s_addr S);
  sg_score : forall e x, 0 <= s_score S e x; sg_thr : 0 <= s_thr S <= 2 ^ 27 }.
(** Counts are not negative and addresses have 64 bits. *)
Definition counters_good (branches falls : list counter) : Prop :=
  forall c, In c (branches ++ falls) -> 0 <= snd c /\ 0 <= fst (fst c) < w64 /\ 0 <= snd (fst c) < w64.
(** The transitions between blocks the samples stand for: a branch is one, and
    possibly one more from the call to the block behind it; a fall-through has
    as many as it passes block ends. *)
Definition passed (mp : mapper) (c : counter) : Z :=
  match sampled_path mp c with Some (i, j) => Z.of_nat (j - i) | None => 0 end.
Definition transitions (mp : mapper) (branches falls : list counter) : Z :=
  fold_right (fun c s => 2 * snd c + s) 0 branches + fold_right (fun c s => snd c * (1 + passed mp c) + s) 0 falls.
