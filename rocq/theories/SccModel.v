(** Model of class CallGraph in symbol_map.cc: strongly connected components of
    the call graph and the order in which inclusive counts are computed.  Nodes
    are numbers; a set of nodes is a list, in the order the hash set is
    iterated; [unsigned] counters are unbounded. *)
From Verif Require Import Base.

Definition upd {A} (f : nat -> A) (k : nat) (v : A) : nat -> A := fun x => if (x =? k)%nat then v else f x.
Fixpoint mem (x : nat) (l : list nat) : bool :=
  match l with [] => false | y :: l' => (x =? y)%nat || mem x l' end.
Definition insert (x : nat) (l : list nat) : list nat := if mem x l then l else l ++ [x].
Definition erase (x : nat) (l : list nat) : list nat := filter (fun y => negb (y =? x)%nat) l.

(** The call graph: nodes in the order of the hash set, callees of each. *)
Record graph := Graph { g_nodes : list nat; g_callees : nat -> list nat }.

(** symbol_map.cc:740-749: index and lowlink of the nodes (0: not visited), the
    stack (top first), and sccmap. *)
Record sc_state := ScState {
  sc_index : nat -> nat;
  sc_low : nat -> nat;
  sc_stack : list nat;
  sc_map : list (nat * nat)
}.
(** sccmap->insert: an existing entry is kept. *)
Definition map_insert (k v : nat) (m : list (nat * nat)) : list (nat * nat) :=
  match aget Nat.eqb k m with Some _ => m | None => m ++ [(k, v)] end.

(** symbol_map.cc:861-866: the do-while loop (back() of an empty stack cannot
    happen: the node is on the stack). *)
Fixpoint pop_scc (node : nat) (stack : list nat) (m : list (nat * nat)) : list nat * list (nat * nat) :=
  match stack with
  | [] => ([], m)
  | x :: s => let m' := map_insert x node m in
              if (x =? node)%nat then (s, m') else pop_scc node s m'
  end.

(** symbol_map.cc:850-858: the loop over the callees; [visit] is the recursive
    call. *)
Fixpoint sc_loop (visit : nat -> sc_state -> option sc_state) (node : nat) (cs : list nat) (st : sc_state)
    : option sc_state :=
  match cs with
  | [] => Some st
  | c :: cs' =>
      let lower st := ScState (sc_index st) (upd (sc_low st) node (Nat.min (sc_low st node) (sc_low st c)))
                        (sc_stack st) (sc_map st) in
      if (sc_index st c =? 0)%nat then
        match visit c st with
        | Some st' => sc_loop visit node cs' (lower st')
        | None => None
        end
      else if mem c (sc_stack st) then sc_loop visit node cs' (lower st)
      else sc_loop visit node cs' st
  end.
(** symbol_map.cc:841-868 StrongConnect.  The parameter index is passed by
    value, so all callees of a node get the same index.  [None] means that
    [fuel] did not suffice; it bounds the recursion depth. *)
Fixpoint StrongConnect (fuel : nat) (g : graph) (node index : nat) (st : sc_state) : option sc_state :=
  match fuel with
  | O => None
  | S fuel' =>
      let st1 := ScState (upd (sc_index st) node index) (upd (sc_low st) node index)
                   (node :: sc_stack st) (sc_map st) in
      match sc_loop (fun c s => StrongConnect fuel' g c (S index) s) node (g_callees g node) st1 with
      | None => None
      | Some st2 =>
          if (sc_index st2 node =? sc_low st2 node)%nat then
            let '(s, m) := pop_scc node (sc_stack st2) (sc_map st2) in
            Some (ScState (sc_index st2) (sc_low st2) s m)
          else Some st2
      end
  end.

(** symbol_map.cc:899-907 FindAndCollapseSCC: the loop computing sccmap. *)
Fixpoint find_sccs (fuel : nat) (g : graph) (l : list nat) (st : sc_state) : option sc_state :=
  match l with
  | [] => Some st
  | x :: l' =>
      if (sc_index st x =? 0)%nat then
        match StrongConnect fuel g x 1 st with
        | Some st' => find_sccs fuel g l' st'
        | None => None
        end
      else find_sccs fuel g l' st
  end.
Definition sc_init : sc_state := ScState (fun _ => 0%nat) (fun _ => 0%nat) [] [].
Definition sccmap (g : graph) : option (list (nat * nat)) :=
  option_map sc_map (find_sccs (S (length (g_nodes g))) g (g_nodes g) sc_init).

(** ( *sccmap)[x]: a missing entry would be a null pointer; [x] stands for it
    (it cannot be missing, see C13_covered). *)
Definition root (m : list (nat * nat)) (x : nat) : nat :=
  match aget Nat.eqb x m with Some r => r | None => x end.
(** symbol_map.cc:874-894 CollapseSCC: one node. *)
Definition collapse_step (m : list (nat * nat)) (callees : nat -> list nat) (node : nat) : nat -> list nat :=
  let r := root m node in
  if negb (node =? r)%nat then
    upd callees r
      (fold_left (fun cs c => if negb (root m c =? r)%nat then insert (root m c) cs else cs)
         (callees node) (callees r))
  else
    let to_erase := filter (fun c => negb (c =? root m c)%nat) (callees node) in
    upd callees node
      (erase node (fold_left (fun cs c => insert (root m c) (erase c cs)) to_erase (callees node))).
(** symbol_map.cc:870-897 CollapseSCC (the loop at line 895 changes copies and
    has no effect). *)
Definition CollapseSCC (m : list (nat * nat)) (g : graph) : graph :=
  Graph (filter (fun x => (x =? root m x)%nat) (g_nodes g))
        (fold_left (collapse_step m) (g_nodes g) (g_callees g)).

(** symbol_map.cc:801-812 TopoVisit: pre_visited, post_visited and the sorted
    vector; a loop is fatal. *)
Record tv_state := TvState { tv_pre : list nat; tv_post : list nat; tv_sorted : list nat }.
Fixpoint tv_loop (visit : nat -> tv_state -> outcome tv_state) (cs : list nat) (st : tv_state) : outcome tv_state :=
  match cs with
  | [] => Ok st
  | c :: cs' => let! st' := visit c st in tv_loop visit cs' st'
  end.
(** [UB] here means that [fuel] did not suffice. *)
Fixpoint TopoVisit (fuel : nat) (g : graph) (node : nat) (st : tv_state) : outcome tv_state :=
  match fuel with
  | O => UB
  | S fuel' =>
      if mem node (tv_post st) then Ok st
      else if mem node (tv_pre st) then Abort
      else
        let! st' := tv_loop (TopoVisit fuel' g) (g_callees g node)
                      (TvState (node :: tv_pre st) (tv_post st) (tv_sorted st)) in
        Ok (TvState (tv_pre st') (node :: tv_post st') (tv_sorted st' ++ [node]))
  end.
(** symbol_map.cc:814-825 ReverseTopoSort; the nodes are picked in the order
    of the list (those already visited return at once, as they have left the
    working set). *)
Definition ReverseTopoSort (g : graph) : outcome (list nat) :=
  let! st := tv_loop (TopoVisit (S (length (g_nodes g))) g) (g_nodes g) (TvState [] [] []) in
  Ok (tv_sorted st).
(** symbol_map.cc:950-959: the order used by ComputeTotalCountIncl. *)
Definition inclusive_order (g : graph) : outcome (list nat) :=
  match sccmap g with
  | Some m => ReverseTopoSort (CollapseSCC m g)
  | None => UB
  end.
