(** Specification for C72: what a client of the cfg objects must observe after
    a history of calls, in terms of the history alone: no pointers, no node
    vectors, no clone maps. *)
From Verif Require Import Base CfgFreqModel CfgObjModel.

Notation node_name := (Z * (nat * nat))%type.  (* function, (block, clone number) *)

(* ---- nodes ---- *)

(** The blocks cloned in function [f], in order. *)
Definition cloned (f : Z) (h : list op) : list nat :=
  flat_map (fun o => match o with OClone f' _ path => if f =? f' then path else [] | _ => [] end) h.

(** Clones are numbered from 1, per block. *)
Fixpoint numbered (seen rest : list nat) : list (nat * nat) :=
  match rest with
  | [] => []
  | b :: r => (b, S (count_occ Nat.eq_dec seen b)) :: numbered (seen ++ [b]) r
  end.

(** The ids of the nodes of a function of [n] blocks, in order. *)
Definition ids (n : nat) (cl : list nat) : list (nat * nat) :=
  map (fun b => (b, 0%nat)) (seq 0 n) ++ numbered [] cl.
Definition node_ids (F : func) (h : list op) : list (nat * nat) :=
  ids (length (f_blocks F)) (cloned (f_index F) h).

(** The function has a node of that id. *)
Definition has_node (P : list func) (h : list op) (x : node_name) : Prop :=
  exists F, In F P /\ f_index F = fst x /\
    (fst (snd x) < length (f_blocks F))%nat /\
    (snd (snd x) <= count_occ Nat.eq_dec (cloned (fst x) h) (fst (snd x)))%nat.

(** The paths recorded for function [f]: the predecessor block, then the
    clones the call made. *)
Definition block_id (F : func) (b : nat) : Z := b_id (nth b (f_blocks F) (Block 0 0 0 false 0)).
Fixpoint paths (F : func) (before h : list op) : list (list (Z * (nat * nat))) :=
  match h with
  | [] => []
  | o :: h' =>
      (match o with
       | OClone f pred path =>
           if f =? f_index F
           then [(block_id F pred, (pred, 0%nat))
                 :: map (fun x => (block_id F (fst x), x)) (numbered (cloned f before) path)]
           else []
       | _ => []
       end) ++ paths F (before ++ [o]) h'
  end.

(* ---- edges ---- *)

Record aedge := AEdge {
  a_src : node_name; a_sink : node_name; a_weight : Z; a_kind : edge_kind; a_isec : bool }.

Definition name_eqb (x y : node_name) : bool :=
  (fst x =? fst y) && (fst (snd x) =? fst (snd y))%nat && (snd (snd x) =? snd (snd y))%nat.
Definition same_kind (a b : edge_kind) : bool :=
  match a, b with
  | KBranchOrFallthrough, KBranchOrFallthrough | KCall, KCall | KRet, KRet => true
  | _, _ => false
  end.
Definition has_key (s d : node_name) (k : edge_kind) (a : aedge) : bool :=
  name_eqb (a_src a) s && name_eqb (a_sink a) d && same_kind (a_kind a) k.

(** Adds [w] to the first edge with the key. *)
Fixpoint bump (s d : node_name) (k : edge_kind) (w : Z) (A : list aedge) : list aedge :=
  match A with
  | [] => []
  | a :: A' => if has_key s d k a then AEdge (a_src a) (a_sink a) (a_weight a + w) (a_kind a) (a_isec a) :: A'
               else a :: bump s d k w A'
  end.

Definition edge_step (A : list aedge) (o : op) : list aedge :=
  match o with
  | OCreate s d w k isec => A ++ [AEdge s d w k isec]
  | OUpdate s d w k isec =>
      if existsb (has_key s d k) A then bump s d k w A else A ++ [AEdge s d w k isec]
  | OClone _ _ _ => A
  end.
(** The edges after a history, in order of creation. *)
Definition edges (h : list op) : list aedge := fold_left edge_step h [].

(* ---- which calls go through ---- *)

Definition int_ok (x : Z) : Prop := -2147483648 <= x <= 2147483647.

(** A new edge from [s] to [d] may be created. *)
Definition may_create (dbg : bool) (A : list aedge) (s d : node_name) (isec : bool) : Prop :=
  if fst s =? fst d
  then isec = false /\ forall a, In a A -> ~ (a_src a = s /\ a_sink a = d)
  else dbg = true -> forall a, In a A -> ~ (a_src a = s /\ a_sink a = d).

Definition accepts (dbg : bool) (P : list func) (h : list op) (o : op) : Prop :=
  match o with
  | OCreate s d w k isec => has_node P h s /\ has_node P h d /\ may_create dbg (edges h) s d isec
  | OUpdate s d w k isec =>
      has_node P h s /\ has_node P h d /\
      match find (has_key s d k) (edges h) with
      | Some a => int_ok (a_weight a + w)
      | None => may_create dbg (edges h) s d isec
      end
  | OClone f pred path =>
      exists F, In F P /\ f_index F = f /\ (pred < length (f_blocks F))%nat /\
        Forall (fun b => (b < length (f_blocks F))%nat) path
  end.
Definition accepted (dbg : bool) (P : list func) (h : list op) : Prop :=
  forall h1 o h2, h = h1 ++ o :: h2 -> accepts dbg P h1 o.

(** The precondition llvm_propeller_cfg.h:444-446 states for ClonePath: the
    path is given by the indices of original blocks. *)
Definition documented (P : list func) (h : list op) : Prop :=
  forall f pred path, In (OClone f pred path) h ->
  forall F, In F P -> f_index F = f -> Forall (fun b => (b < length (f_blocks F))%nat) path.

(* ---- observations ---- *)

(** The address a client reads back: the low 32 bits, sign-extended. *)
Definition read_back (a : Z) : Z :=
  let x := a mod 4294967296 in if x <? 2147483648 then x else x + 18446744069414584320.

(** The node at position [p], of id (b, c), copies block [b]. *)
Definition shows_node (F : func) (p : nat) (id : nat * nat) (n : cnode) : Prop :=
  n_func n = f_index F /\ (n_bb n, n_clone n) = id /\ n_index n = Z.of_nat p /\ n_freq n = 0 /\
  exists B, nth_error (f_blocks F) (fst id) = Some B /\
    n_bbid n = b_id B /\ addr n = read_back (b_addr B) /\ n_size n = b_size B /\
    n_pad n = b_pad B /\ n_flags n = b_flags B.

(** An edge as a client sees it: through the ids of its end points. *)
Definition name_of (st : state) (r : nref) (x : node_name) : Prop :=
  exists n, node_at st r = Some n /\ (n_func n, (n_bb n, n_clone n)) = x.
Definition shows_edge (st : state) (e : nat) (a : aedge) : Prop :=
  exists d, nth_error (s_edges st) e = Some d /\ name_of st (e_src d) (a_src a) /\
    name_of st (e_sink d) (a_sink a) /\ e_weight d = a_weight a /\ e_kind d = a_kind a /\
    e_isec d = a_isec a.
Definition shows_edges (st : state) (l : list nat) (A : list aedge) : Prop := Forall2 (shows_edge st) l A.

Definition inside (f : Z) (a : aedge) : bool := (fst (a_src a) =? f) && (fst (a_sink a) =? f).
Definition leaving (f : Z) (a : aedge) : bool := (fst (a_src a) =? f) && negb (fst (a_sink a) =? f).
Definition entering (f : Z) (a : aedge) : bool := negb (fst (a_src a) =? f) && (fst (a_sink a) =? f).
Definition from (x : node_name) (a : aedge) : bool := name_eqb (a_src a) x.
Definition to (x : node_name) (a : aedge) : bool := name_eqb (a_sink a) x.

(** Everything a client can see of function [F] with node ids [I], clone paths
    [L], in a program with edges [A]. *)
Definition shows_cfg (st : state) (g : cfg) (F : func) (I : list (nat * nat))
    (L : list (list (Z * (nat * nat)))) (A : list aedge) : Prop :=
  g_index g = f_index F /\ g_section g = f_section F /\ g_module g = f_module F /\ g_names g = f_names F /\
  Forall2 (fun p n => exists id, nth_error I p = Some id /\ shows_node F p id n)
          (seq 0 (length I)) (g_nodes g) /\
  (* GetNodeById finds exactly the node of the given id, or stops the program *)
  (forall id p, nth_error I p = Some id -> GetNodeById g id = Ok p) /\
  (forall id, ~ In id I -> GetNodeById g id = Abort) /\
  (* GetAllClonesForBbIndex: all nodes of the block, original first *)
  (forall b, In (b, 0%nat) I -> exists l, GetAllClonesForBbIndex g b = Ok l /\
     forall c p, nth_error l c = Some p <-> nth_error I p = Some (b, c)) /\
  (* landing pads and paths *)
  g_pads g = Z.of_nat (length (filter (fun id => b_pad (nth (fst id) (f_blocks F) (Block 0 0 0 false 0))) I)) /\
  g_paths g = L /\
  (* edges *)
  shows_edges st (g_intra g) (filter (inside (f_index F)) A) /\
  shows_edges st (g_inter g) (filter (leaving (f_index F)) A) /\
  (forall p id n, nth_error I p = Some id -> nth_error (g_nodes g) p = Some n ->
     let x := (f_index F, id) in
     shows_edges st (n_intra_outs n) (filter (fun a => from x a && inside (f_index F) a) A) /\
     shows_edges st (n_intra_ins n) (filter (fun a => to x a && inside (f_index F) a) A) /\
     shows_edges st (n_inter_outs n) (filter (fun a => from x a && leaving (f_index F) a) A) /\
     shows_edges st (n_inter_ins n) (filter (fun a => to x a && entering (f_index F) a) A)).

(* ---- frequencies ---- *)

Definition sum_weights (A : list aedge) : Z := fold_right (fun a s => a_weight a + s) 0 A.
Definition max_weight (A : list aedge) : Z := fold_right (fun a s => Z.max (a_weight a) s) 0 A.
Definition of_kind (k : edge_kind) (a : aedge) : bool := same_kind (a_kind a) k.
Definition not_kind (k : edge_kind) (a : aedge) : bool := negb (same_kind (a_kind a) k).

(** The frequency of node [x] in a program with edges [A] (C37). *)
Definition frequency (A : list aedge) (x : node_name) : Z :=
  let outs := filter (from x) A in
  let ins := filter (to x) A in
  Z.max (Z.max (max_weight (filter (of_kind KCall) outs)) (sum_weights (filter (not_kind KCall) outs)))
        (Z.max (max_weight (filter (of_kind KRet) ins)) (sum_weights (filter (not_kind KRet) ins))).

(** Weights are non-negative and their totals at each node fit an int. *)
Definition fits (A : list aedge) : Prop :=
  Forall (fun a => 0 <= a_weight a) A /\
  forall x, sum_weights (filter (from x) A) <= 2147483647 /\ sum_weights (filter (to x) A) <= 2147483647.

(** [m] is what remains of [l] when only the elements satisfying [K] are kept. *)
Inductive picks {X} (K : X -> Prop) : list X -> list X -> Prop :=
| picks_nil : picks K [] []
| picks_take x l m : K x -> picks K l m -> picks K (x :: l) (x :: m)
| picks_skip x l m : ~ K x -> picks K l m -> picks K (x :: l) m.

(** [y], another node of the same function, branches to [x] at least [et] times. *)
Definition hot_pred (A : list aedge) (et : Z) (x y : node_name) : Prop :=
  y <> x /\ fst y = fst x /\
  exists a, In a A /\ a_src a = y /\ a_sink a = x /\ a_kind a = KBranchOrFallthrough /\ et <= a_weight a.

(** A hot join node: not (a copy of) the entry block, frequent enough, with at
    least two hot predecessors. *)
Definition hot_join (A : list aedge) (f nt et : Z) (id : nat * nat) : Prop :=
  fst id <> 0%nat /\ nt <= frequency A (f, id) /\
  exists y1 y2, y1 <> y2 /\ hot_pred A et (f, id) y1 /\ hot_pred A et (f, id) y2.
