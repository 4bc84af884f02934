(** The two queues of candidate merges of the Propeller chain builder. *)
From Verif Require Import Base ChainModel ChainBuildModel.

(** llvm_propeller_node_chain_builder.h:41-52: the two operations that change a
    queue.  A pair of chains (two pointers) is the pair of the ids of the
    chains, which are distinct. *)
Inductive qop := QInsert (a : assembly) | QRemove (p : Z * Z).
(** llvm_propeller_node_chain_assembly.h chain_pair() *)
Definition a_pair (a : assembly) : Z * Z := (a_split a, a_unsplit a).

(** llvm_propeller_node_chain_builder.h:85-101 NodeChainAssemblyBalancedTreeQueue:
    assemblies_, a std::set in the order of its comparator, and handles_, the
    iterator stored for each pair of chains.  A node of the set is its identity
    (the address iterators hold) and the assembly; [tq_next] is an address never
    used so far. *)
Record tqueue := TQ { tq_items : list (nat * assembly); tq_handles : list ((Z * Z) * nat); tq_next : nat }.
Definition tq0 : tqueue := TQ [] [] 0.

(** std::set::insert: equivalent elements (neither is less) are not added; the
    second component is the iterator returned. *)
Fixpoint set_insert (n : nat) (a : assembly) (l : list (nat * assembly)) : list (nat * assembly) * nat :=
  match l with
  | [] => ([(n, a)], n)
  | (i, b) :: t =>
      if asm_ltb b a then let (t', r) := set_insert n a t in ((i, b) :: t', r)
      else if asm_ltb a b then ((n, a) :: l, n)
      else (l, i)
  end.
(** std::set::erase(iterator): [None] when the iterator is dangling, which is
    undefined behaviour. *)
Fixpoint set_erase (n : nat) (l : list (nat * assembly)) : option (list (nat * assembly)) :=
  match l with
  | [] => None
  | (i, b) :: t => if Nat.eqb i n then Some t
                   else match set_erase n t with None => None | Some t' => Some ((i, b) :: t') end
  end.

(** llvm_propeller_node_chain_builder.h:69-74 RemoveAssembly *)
Definition tq_remove (p : Z * Z) (q : tqueue) : option tqueue :=
  match aget pair_eqb p (tq_handles q) with
  | None => Some q
  | Some i => match set_erase i (tq_items q) with
              | None => None
              | Some l => Some (TQ l (aremove pair_eqb p (tq_handles q)) (tq_next q))
              end
  end.
(** llvm_propeller_node_chain_builder.h:76-83 InsertAssembly *)
Definition tq_insert (a : assembly) (q : tqueue) : option tqueue :=
  match (match aget pair_eqb (a_pair a) (tq_handles q) with
         | None => Some (tq_items q)
         | Some i => set_erase i (tq_items q)
         end) with
  | None => None
  | Some l => let (l', r) := set_insert (tq_next q) a l in
              Some (TQ l' (aset pair_eqb (a_pair a) r (tq_handles q)) (S (tq_next q)))
  end.
Definition tq_step (o : qop) (q : tqueue) : option tqueue :=
  match o with QInsert a => tq_insert a q | QRemove p => tq_remove p q end.
(** A sequence of operations on an empty queue; [None]: undefined behaviour. *)
Fixpoint tq_run (ops : list qop) (q : tqueue) : option tqueue :=
  match ops with [] => Some q | o :: ops' => match tq_step o q with None => None | Some q' => tq_run ops' q' end end.
(** llvm_propeller_node_chain_builder.h:67 empty *)
Definition tq_empty (q : tqueue) : bool := match tq_items q with [] => true | _ => false end.
(** llvm_propeller_node_chain_builder.h:63-65 GetBestAssembly: *rbegin();
    [None]: rbegin of an empty set is dereferenced. *)
Fixpoint set_last (l : list (nat * assembly)) : option assembly :=
  match l with [] => None | [(_, b)] => Some b | _ :: t => set_last t end.
Definition tq_best (q : tqueue) : option assembly := set_last (tq_items q).

(** llvm_propeller_node_chain_builder.h:122-128 of NodeChainAssemblyIterativeQueue
    (assemblies_ is a hash map; [queue] of ChainBuildModel.v). *)
Definition iq_step (q : queue) (o : qop) : queue :=
  match o with QInsert a => aset pair_eqb (a_pair a) a q | QRemove p => aremove pair_eqb p q end.
Definition iq_run (ops : list qop) : queue := fold_left iq_step ops [].
(** llvm_propeller_node_chain_builder.h:109 empty *)
Definition iq_empty (q : queue) : bool := match q with [] => true | _ => false end.
(** llvm_propeller_node_chain_builder.h:111-119 GetBestAssembly is [best_of] of
    ChainBuildModel.v on the entries in the order the hash map iterates. *)
