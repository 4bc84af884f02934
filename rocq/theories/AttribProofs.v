(** Proofs about attributing samples to source locations. *)
From Verif Require Import Base AssocFold SymbolModel SymbolSpec SymbolProofs.
Ltac Zify.zify_post_hook ::= Z.div_mod_to_equations.

Lemma path_eqb_spec a b : reflect (a = b) (path_eqb a b).
Proof.
  revert b; induction a as [|x a IH]; intros [|y b]; cbn [path_eqb]; try (constructor; congruence).
  destruct (callsite_eqb_spec x y) as [->|H]; cbn [andb]; [|constructor; congruence].
  destruct (IH b) as [->|H]; constructor; congruence.
Qed.

Lemma obs_child s k p :
  total_at s (k :: p) = total_at (cget k (s_calls s)) p /\
  head_at s (k :: p) = head_at (cget k (s_calls s)) p /\
  (forall l, pos_at s (k :: p) l = pos_at (cget k (s_calls s)) p l).
Proof.
  unfold total_at, head_at, pos_at, cget. cbn [node_at].
  destruct (aget callsite_eqb k (s_calls s)); [repeat split|].
  destruct p; cbn [node_at sym0 s_calls aget]; repeat split.
Qed.

Lemma obs_child_set h t ts p cs k c :
  let s' := Sym h t ts p (aset callsite_eqb k c cs) in
  forall k2 q,
  (has_node s' (k2 :: q) = if callsite_eqb k2 k then has_node c q else has_node (Sym h t ts p cs) (k2 :: q)) /\
  (total_at s' (k2 :: q) = if callsite_eqb k2 k then total_at c q else total_at (Sym h t ts p cs) (k2 :: q)) /\
  (head_at s' (k2 :: q) = if callsite_eqb k2 k then head_at c q else head_at (Sym h t ts p cs) (k2 :: q)) /\
  (forall l, pos_at s' (k2 :: q) l = if callsite_eqb k2 k then pos_at c q l else pos_at (Sym h t ts p cs) (k2 :: q) l).
Proof.
  intros s' k2 q. unfold s', has_node, total_at, head_at, pos_at. cbn [node_at s_calls].
  rewrite aget_aset by auto. destruct (callsite_eqb k2 k); repeat split.
Qed.

Lemma osn_cons base conv count k i j rest h t ts p cs :
  on_stack_node base conv count k (i :: j :: rest) (Sym h t ts p cs) =
  if conv && si_invalid i then k (Sym h (add64 t count) ts p cs)
  else Sym h (add64 t count) ts p
         (aset callsite_eqb (si_offset base i, si_func j)
            (on_stack_node base conv count k (j :: rest)
               (cget (si_offset base i, si_func j) cs)) cs).
Proof. reflexivity. Qed.
Lemma stack_path_cons base conv i j rest :
  stack_path base conv (i :: j :: rest) =
  if conv && si_invalid i then []
  else (si_offset base i, si_func j) :: stack_path base conv (j :: rest).
Proof. reflexivity. Qed.

(** What a leaf action may do: change one location of the node itself. *)
Section OnStack.
  Variables (base : Z -> Z) (conv : bool) (count : Z).
  Variables (loc : Z) (f : pinfo -> pinfo) (active : bool).
  Let k (s : symbol) := if active then set_pos loc f s else s.

  Lemma k_obs s q :
    has_node (k s) q = has_node s q /\ total_at (k s) q = total_at s q /\
    head_at (k s) q = head_at s q /\
    (forall l, pos_at (k s) q l =
       if active && path_eqb q [] && (l =? loc) then Some (f (pget loc (s_pos s))) else pos_at s q l).
  Proof.
    unfold k. destruct active; cbn [andb]; [|repeat split; reflexivity].
    destruct s as [h t ts p cs]. cbn [set_pos s_pos].
    destruct q as [|k2 q]; cbn [path_eqb andb].
    - repeat split. intros l. unfold pos_at. cbn [node_at s_pos]. rewrite aget_aset by auto. reflexivity.
    - repeat split.
  Qed.

  Lemma add_total_obs c s q :
    has_node (add_total c s) q = has_node s q /\
    total_at (add_total c s) q = (if path_eqb q [] then add64 (total_at s q) c else total_at s q) /\
    head_at (add_total c s) q = head_at s q /\
    (forall l, pos_at (add_total c s) q l = pos_at s q l).
  Proof.
    destruct s as [h t ts p cs]. destruct q; repeat split.
  Qed.

  Lemma osn_stop s q :
    has_node (k (add_total count s)) q = has_node s q || is_prefix q [] /\
    total_at (k (add_total count s)) q =
      (if is_prefix q [] then add64 (total_at s q) count else total_at s q) /\
    head_at (k (add_total count s)) q = head_at s q /\
    (forall l, pos_at (k (add_total count s)) q l =
       if active && path_eqb q [] && (l =? loc)
       then Some (f (match pos_at s [] loc with Some i => i | None => pinfo0 end))
       else pos_at s q l).
  Proof.
    destruct (k_obs (add_total count s) q) as (A1 & A2 & A3 & A4).
    destruct (add_total_obs count s q) as (B1 & B2 & B3 & B4).
    rewrite A1, A2, A3, B1, B2, B3. split; [|split; [|split; [reflexivity|]]].
    - destruct q; cbn [is_prefix]; [reflexivity|rewrite orb_false_r; reflexivity].
    - destruct q; reflexivity.
    - intros l. rewrite A4, B4. destruct s as [h t ts p cs]. reflexivity.
  Qed.

  Lemma osn_obs outer : outer <> [] -> forall s q,
    has_node (on_stack_node base conv count k outer s) q
      = has_node s q || is_prefix q (stack_path base conv outer) /\
    total_at (on_stack_node base conv count k outer s) q
      = (if is_prefix q (stack_path base conv outer) then add64 (total_at s q) count else total_at s q) /\
    head_at (on_stack_node base conv count k outer s) q = head_at s q /\
    (forall l, pos_at (on_stack_node base conv count k outer s) q l =
       if active && path_eqb q (stack_path base conv outer) && (l =? loc)
       then Some (f (match pos_at s (stack_path base conv outer) loc with Some i => i | None => pinfo0 end))
       else pos_at s q l).
  Proof.
    induction outer as [|i outer IH]; intros Hne s q; [congruence|].
    destruct outer as [|j rest].
    - cbn [on_stack_node stack_path]. apply osn_stop.
    - destruct s as [h t ts p cs]. rewrite osn_cons, stack_path_cons.
      destruct (conv && si_invalid i) eqn:Hinv; [apply (osn_stop (Sym h t ts p cs))|].
      specialize (IH ltac:(discriminate)).
      set (P := stack_path base conv (j :: rest)) in *.
      set (go := on_stack_node base conv count k (j :: rest)) in *.
      set (key := (si_offset base i, si_func j)).
      destruct q as [|k2 q].
      + cbn [is_prefix path_eqb]. rewrite !andb_false_r.
        unfold has_node, total_at, head_at, pos_at. cbn [node_at s_total s_head s_pos].
        repeat split.
      + destruct (obs_child_set h (add64 t count) ts p cs key
                    (go (cget key cs)) k2 q) as (A1 & A2 & A3 & A4).
        rewrite A1, A2, A3. cbn [is_prefix path_eqb].
        destruct (callsite_eqb_spec k2 key) as [->|Hk]; cbn [andb].
        * destruct (IH (cget key cs) q) as (B1 & B2 & B3 & B4).
          destruct (obs_child (Sym h t ts p cs) key q) as (C1 & C2 & C3). cbn [s_calls] in *.
          split; [|split; [|split]].
          -- rewrite B1. unfold has_node, cget. cbn [node_at s_calls].
             destruct (aget callsite_eqb key cs); [reflexivity|].
             destruct q; reflexivity.
          -- rewrite B2, C1. reflexivity.
          -- rewrite B3, C2. reflexivity.
          -- intros l. rewrite A4. destruct (callsite_eqb_spec key key); [|congruence].
             rewrite B4, C3. destruct (obs_child (Sym h t ts p cs) key P) as (_ & _ & D3).
             cbn [s_calls] in D3. rewrite D3. reflexivity.
        * rewrite orb_false_r, andb_false_r. cbn [andb]. repeat split.
          intros l. rewrite A4. destruct (callsite_eqb_spec k2 key); [congruence|]. reflexivity.
  Qed.

  Lemma k_ok s : (forall i, pinfo_ok i -> pinfo_ok (f i)) -> sym_ok s -> sym_ok (k s).
  Proof.
    intros Hf Hs. unfold k. destruct active; [|exact Hs].
    destruct Hs as [h t ts p cs Hh Ht Hp Hn Hc]. cbn [set_pos]. constructor; auto.
    destruct Hp as [Hp Fp]. split; [apply NoDup_akeys_aset; auto|].
    rewrite In_Forall_snd in *. intros l i Hi. apply (In_aset Z.eqb Z_eqb_reflect) in Hi.
    destruct Hi as [Hi| ->]; [eauto|]. apply Hf. unfold pget.
    destruct (aget Z.eqb loc p) eqn:E; [|apply pinfo0_ok]. apply aget_In in E; auto. eauto.
  Qed.

  Lemma osn_ok outer : (forall i, pinfo_ok i -> pinfo_ok (f i)) -> forall s,
    sym_ok s -> sym_ok (on_stack_node base conv count k outer s).
  Proof.
    intros Hf. assert (Hat : forall s, sym_ok s -> sym_ok (add_total count s)).
    { intros s []; cbn [add_total]; constructor; auto. }
    induction outer as [|i outer IH]; intros s Hs; cbn [on_stack_node].
    - apply k_ok; auto.
    - destruct outer as [|j rest]; [apply k_ok; auto|].
      destruct (conv && si_invalid i); [apply k_ok; auto|].
      specialize (Hat s Hs). set (s' := add_total count s) in *. clearbody s'. clear s Hs.
      destruct Hat as [h t ts p cs Hh Ht Hp Hn Hc].
      constructor; auto.
      + apply NoDup_akeys_aset; auto.
      + intros k2 c Hi. apply (In_aset callsite_eqb callsite_eqb_spec) in Hi.
        destruct Hi as [Hi| ->]; [eauto|]. apply IH. unfold cget.
        destruct (aget callsite_eqb (si_offset base i, si_func j) cs) eqn:E; [|apply sym0_ok].
        apply aget_In in E; auto. eauto.
  Qed.
End OnStack.

Lemma nth_set_nth {A} (l : list A) i j x :
  (i < length l)%nat ->
  nth_error (set_nth i x l) j = if Nat.eqb j i then Some x else nth_error l j.
Proof.
  revert i j; induction l as [|y l IH]; intros i j Hi; cbn [length] in Hi; [lia|].
  destruct i as [|i], j as [|j]; cbn [set_nth nth_error Nat.eqb]; try reflexivity.
  apply IH. lia.
Qed.

Lemma sm_update_spec n f m s :
  sm_find m n = Some s ->
  exists m', sm_update n f m = Ok m' /\
    (forall a b, same_object m' a b = same_object m a b) /\
    forall n', sm_find m' n' = if same_object m n' n then Some (f s) else sm_find m n'.
Proof.
  unfold sm_find, sm_update, same_object. intros H.
  destruct (aget name_eqb n (sm_names m)) as [i|] eqn:E; [|discriminate].
  rewrite H. eexists; split; [reflexivity|]. cbn [sm_names sm_heap]. split; [reflexivity|].
  intros n'. destruct (aget name_eqb n' (sm_names m)) as [j|]; [|reflexivity].
  rewrite nth_set_nth; [reflexivity|]. apply nth_error_Some. congruence.
Qed.
