(** C10, C11: the limits on inline instances and call targets. *)
From Verif Require Import Base AssocFold ISort SymbolModel SymbolSpec SymbolProofs AttribProofs
  TrimModel TrimProofs ThrottleProofs.

(** The call targets recorded at an inline path and location. *)
Definition targets_at (s : symbol) (p : path) (l : Z) : list (name * Z) :=
  match pos_at s p l with Some i => p_targets i | None => [] end.
(** How many recorded targets are preferred to [(t, c)]: larger count, or equal
    count and smaller name. *)
Definition preferred (s : symbol) (p : path) (l : Z) (t : name) (c : Z) : Z :=
  zlen (filter (fun uc => (c <? snd uc) || ((snd uc =? c) && name_ltb (fst uc) t)) (targets_at s p l)).

(** C11 *)
Theorem C11_trim_call_targets : forall k s, 0 <= k < 2 ^ 63 -> sym_ok s ->
  let s' := TrimCallTargets k s in
  forall p l t,
    (* at most k targets, and none dropped needlessly *)
    zlen (targets_at s' p l) = Z.min k (zlen (targets_at s p l)) /\
    (* the k preferred ones stay, with their counts *)
    (has_target s' p l t = true <->
       has_target s p l t = true /\ preferred s p l t (target_at s p l t) < k) /\
    (has_target s' p l t = true -> target_at s' p l t = target_at s p l t) /\
    (* nothing else changes *)
    has_node s' p = has_node s p /\ total_at s' p = total_at s p /\ head_at s' p = head_at s p /\
    has_pos s' p l = has_pos s p l /\ count_at s' p l = count_at s p l /\ ninst_at s' p l = ninst_at s p l.
Proof.
  intros k s Hk Hs s' p l t.
  unfold targets_at, preferred, has_target, target_at, has_pos, count_at, ninst_at,
    has_node, total_at, head_at, s', targets_at.
  rewrite pos_at_trim, node_at_trim.
  assert (Hnode : (match option_map (TrimCallTargets k) (node_at s p) with Some _ => true | None => false end
                   = match node_at s p with Some _ => true | None => false end) /\
                  (match option_map (TrimCallTargets k) (node_at s p) with Some n => s_total n | None => 0 end
                   = match node_at s p with Some n => s_total n | None => 0 end) /\
                  (match option_map (TrimCallTargets k) (node_at s p) with Some n => s_head n | None => 0 end
                   = match node_at s p with Some n => s_head n | None => 0 end)).
  { destruct (node_at s p) as [[]|]; repeat split. }
  destruct Hnode as (N1 & N2 & N3). rewrite N1, N2, N3.
  destruct (pos_at s p l) as [i|] eqn:E; cbn [option_map p_targets p_count p_ninst].
  2:{ unfold zlen; cbn [length]. repeat split; try discriminate; try lia. }
  destruct (pos_at_ok _ _ _ _ Hs E) as (_ & _ & (Hn & _)).
  rewrite trim_length by exact Hk.
  unfold tget. rewrite aget_trim by assumption.
  destruct (aget name_eqb t (p_targets i)) as [c|] eqn:Et.
  2:{ repeat split; try discriminate; try (intros []; discriminate). }
  assert (Hr : Z.of_nat (rank (t, c) (p_targets i)) =
    zlen (filter (fun uc => (c <? snd uc) || ((snd uc =? c) && name_ltb (fst uc) t)) (p_targets i))).
  { unfold rank, zlen. f_equal. f_equal. apply filter_ext. intros [u d]. unfold target_before. cbn [fst snd].
    destruct (Z.eqb_spec d c); cbn [andb]; [|rewrite orb_false_r; reflexivity].
    destruct (Z.ltb_spec c d); [lia|reflexivity]. }
  rewrite Hr. destruct (Z.ltb_spec (zlen (filter (fun uc => (c <? snd uc) || ((snd uc =? c) && name_ltb (fst uc) t)) (p_targets i))) k).
  - repeat split; auto.
  - repeat split; try discriminate. intros []; lia.
Qed.
Print Assumptions C11_trim_call_targets.

(** A negative limit is compared as an unsigned number: nothing is trimmed. *)
Example C11_negative_limit : trim_targets (-1) [([102], 7); ([103], 3)] = [([102], 7); ([103], 3)].
Proof. vm_compute. reflexivity. Qed.
Example C11_nonvacuous :
  targets_at (TrimCallTargets 2 (Sym 0 9 0 [(5, PInfo 9 1 [([102], 3); ([103], 4); ([101], 3)])] [])) [] 5
  = [([103], 4); ([101], 3)].
Proof. vm_compute. reflexivity. Qed.

(** The inlined callees at a location of a node. *)
Definition callees_at (s : symbol) (p : path) (l : Z) : list callsite :=
  match node_at s p with
  | Some n => filter (fun c => fst c =? l) (akeys (s_calls n))
  | None => []
  end.
Definition all_callees (s : symbol) (p : path) : list callsite :=
  match node_at s p with Some n => akeys (s_calls n) | None => [] end.

(** C10.  [p] ranges over the inline paths that survive. *)
Theorem C10_throttle_keeps_hottest : forall k s, 0 <= k -> sym_ok s ->
  let s' := throttleInlineInstances k s in
  sym_ok s' /\
  forall p, has_node s' p = true ->
    has_node s p = true /\ head_at s' p = head_at s p /\
    (forall l, pos_at s' p l = pos_at s p l) /\
    (forall l, zlen (callees_at s' p l) = Z.min k (zlen (callees_at s p l)) /\
               (forall a, In a (callees_at s' p l) -> In a (callees_at s p l)) /\
               (forall a b, In a (callees_at s' p l) ->
                            In b (callees_at s p l) -> ~ In b (callees_at s' p l) ->
                            total_at s (p ++ [b]) <= total_at s (p ++ [a]))) /\
    (* the samples of what was dropped below leave the total *)
    total_at s' p = total_at s p -
      Z.min (total_at s p)
        (fold_right Z.add 0 (map (fun c => total_at s (p ++ [c]) - total_at s' (p ++ [c]))
                                 (all_callees s p)) mod 2 ^ 64).
Proof.
  intros k s Hk Hs s'.
  assert (E' : s' = fst (throttle k s)) by (unfold s', throttleInlineInstances; destruct (Z.ltb_spec k 0); [lia|reflexivity]).
  clearbody s'. subst s'. split; [apply throttle_ok; exact Hs|].
  intros p. revert s Hs. induction p as [|c p IH]; intros s Hs Hh.
  - assert (Hn : NoDup (akeys (s_calls s))) by (destruct Hs; assumption).
    split; [reflexivity|]. split; [destruct s; reflexivity|]. split; [intros l; destruct s; reflexivity|].
    split.
    + intros l. change (callees_at (fst (throttle k s)) [] l) with (site_keys (fst (throttle k s)) l).
      change (callees_at s [] l) with (site_keys s l).
      split; [apply throttle_count; assumption|]. split; [apply throttle_sub|].
      intros a b. apply throttle_hot; assumption.
    + cbn [app]. exact (throttle_total k s Hk Hn).
  - unfold has_node in Hh. cbn [node_at] in Hh. rewrite child_throttle in Hh.
    destruct (stays k (s_calls s) c) eqn:Est; [|discriminate].
    destruct (aget callsite_eqb c (s_calls s)) as [n|] eqn:En; [|discriminate]. cbn [option_map] in Hh.
    assert (Hchild : aget callsite_eqb c (s_calls (fst (throttle k s))) = Some (fst (throttle k n))).
    { rewrite child_throttle, Est, En. reflexivity. }
    specialize (IH n (sym_ok_child _ _ _ Hs En) Hh).
    assert (T : forall q, total_at s (c :: q) = total_at n q) by (intros; unfold total_at; cbn [node_at]; rewrite En; reflexivity).
    assert (T' : forall q, total_at (fst (throttle k s)) (c :: q) = total_at (fst (throttle k n)) q)
      by (intros; unfold total_at; cbn [node_at]; rewrite Hchild; reflexivity).
    unfold has_node, head_at, pos_at, callees_at, all_callees in *. cbn [node_at app].
    rewrite En, Hchild. destruct IH as (I1 & I2 & I3 & I4 & I5).
    split; [exact I1|]. split; [exact I2|]. split; [exact I3|]. split.
    + intros l. destruct (I4 l) as (J1 & J2 & J3). split; [exact J1|]. split; [exact J2|].
      intros a b. rewrite !T. apply J3.
    + rewrite T, T', I5. do 3 f_equal. f_equal. apply map_ext. intros x. rewrite T, T'. reflexivity.
Qed.
Print Assumptions C10_throttle_keeps_hottest.

Theorem C10_negative_limit_keeps_all : forall k s, k < 0 -> throttleInlineInstances k s = s.
Proof. intros k s Hk. unfold throttleInlineInstances. destruct (Z.ltb_spec k 0); [reflexivity|lia]. Qed.
Print Assumptions C10_negative_limit_keeps_all.

Definition ex_t : symbol :=
  Sym 0 30 0 [] [((5, [97]), Sym 0 3 0 [] []); ((5, [98]), Sym 0 20 0 [] []); ((6, [97]), Sym 0 7 0 [] [])].
Example C10_nonvacuous : sym_ok ex_t /\
  all_callees (throttleInlineInstances 1 ex_t) [] = [(5, [98]); (6, [97])] /\
  total_at (throttleInlineInstances 1 ex_t) [] = 27.
Proof. split; [sym_ok_tac|vm_compute; auto]. Qed.
