(** C09: flattening bounds the inline nesting depth and loses nothing. *)
From Verif Require Import Base AssocFold SymbolModel SymbolSpec SymbolProofs AttribProofs AfdoModel AfdoProofs
  AfdoReadProofs FlattenModel FlattenSpec FlattenPureProofs FlattenMapProofs FlattenNestProofs FlattenTopProofs FlattenAllProofs.

(** For every profile of functions that share no object and every level k > 0,
    flattening succeeds and afterwards: no function has a chain of inlined
    callees beyond level k; every function is still there, and new functions
    are ones that were inlined before; every inlined callee within the limit is
    still there; every callsite at the limit has become a call target, and its
    callee a function of its own. *)
Theorem C09_flatten k m : (0 < k)%nat -> smap_ok m ->
  exists num m', FlattenNestedInlineCallsites k m = Ok (num, m') /\ smap_ok m' /\
    (forall n s', sm_find m' n = Some s' -> within_level k s') /\
    (forall n, sm_find m n <> None -> sm_find m' n <> None) /\
    (forall n, sm_find m' n <> None -> sm_find m n <> None \/ inlined n m) /\
    (forall n s q, sm_find m n = Some s -> has_node s q = true -> (length q < k)%nat ->
       exists s', sm_find m' n = Some s' /\ has_node s' q = true) /\
    (forall n s q key, sm_find m n = Some s -> has_node s (q ++ [key]) = true -> S (length q) = k ->
       sm_find m' (snd key) <> None /\
       exists s', sm_find m' n = Some s' /\ has_target s' q (fst key) (snd key) = true).
Proof.
  intros kpos W.
  destruct (flatten_core k m (fun _ => False) [] (fun _ => 0) kpos W) as (num & m' & R & Nm & E & G & HN & Z & T & _); auto.
  { intros (n & s & _ & C). revert n C. induction s as [h t ts pos cs IH] using symbol_ind'. intros n C. cbn [calls_in] in C.
    assert (Q : forall l, (forall x, In x l -> In x cs) ->
      ~ fold_right (fun kc a => (n = [] /\ False) \/ calls_in (fun _ => False) [] (snd (fst kc)) (snd kc) \/ a) False l).
    { induction l as [|[k0 c0] l IHl]; intros Inc H; cbn [fold_right fst snd] in H; [exact H|].
      destruct H as [[_ H]|[H|H]]; [exact H| |].
      - apply (IH k0 c0 (Inc _ (or_introl eq_refl)) _ H).
      - apply IHl; [intros x Ix; apply Inc; right; exact Ix|exact H]. }
    apply (Q cs); auto. }
  { intros; apply eqm_refl. }
  pose proof G as (W' & A' & X & Gr).
  exists num, m'. split; [exact E|]. split; [exact W'|].
  assert (Keep : forall n s, sm_find m n = Some s -> exists i s', nth_error (sm_heap m) i = Some s /\
    sm_find m' n = Some s' /\ nth_error (sm_heap m') i = Some s').
  { intros n s Fs. destruct (find_get m n s W Fs) as (i & Ei & Es & _).
    destruct (Gr i [] s kpos) as (s' & N' & _); [unfold node_get; rewrite Es; reflexivity|].
    unfold node_get in N'. destruct (nth_error (sm_heap m') i) as [r|] eqn:Er; [|discriminate]. cbn [node_at] in N'.
    exists i, r. split; [exact Es|]. split; [|exact Er]. unfold sm_find. rewrite (aget_ext m m' Nm n i W X Ei). exact Er. }
  split.
  { intros n s' Fs. destruct (find_get m' n s' W' Fs) as (i & Ei & Es & _). apply low_within.
    destruct k as [|k']; [lia|]. apply low_calls_at. intros q Lq. specialize (Z i q ltac:(lia)). unfold calls_of, node_get in Z.
    rewrite Es in Z. exact Z. }
  split.
  { intros n Hn. destruct (sm_find m n) as [s|] eqn:Fs; [|congruence]. destruct (Keep n s Fs) as (i & s' & _ & Fs' & _). congruence. }
  split.
  { intros n Hn. destruct X as (e & Ee & Fe). destruct (sm_find m' n) as [s'|] eqn:Fs'; [|congruence].
    assert (In' : In n (map fst (sm_names m'))).
    { unfold sm_find in Fs'. destruct (aget name_eqb n (sm_names m')) as [i|] eqn:Ei; [|discriminate].
      apply aget_In in Ei; [|apply name_eqb_spec]. apply (in_map fst) in Ei. exact Ei. }
    assert (IN : In n (function_names m)).
    { rewrite Ee, map_app in In'. apply in_app_or in In'. destruct In' as [I0|I0].
      - unfold function_names. apply in_or_app. left; exact I0.
      - apply HN. apply in_map_iff in I0. destruct I0 as (y & <- & Iy). rewrite Forall_forall in Fe. apply Fe. exact Iy. }
    unfold function_names in IN. apply in_app_or in IN. destruct IN as [I0|I0].
    - left. destruct (aget name_eqb n (sm_names m)) as [i|] eqn:Ei.
      + unfold sm_find. rewrite Ei. pose proof (ok_range m n i W Ei) as Li. apply nth_error_Some. exact Li.
      + apply (aget_None_iff name_eqb name_eqb_spec) in Ei. contradiction.
    - right. apply in_flat_map in I0. destruct I0 as (s & Is & Ig). apply In_nth_error in Is. destruct Is as [i Es].
      destruct (callee_calls_in n s Ig (rootname m i)) as [F C]. exists F. exists (rootname m i), s.
      split; [apply root_find; auto|exact C]. }
  split.
  { intros n s q Fs Hq Lq. destruct (Keep n s Fs) as (i & s' & Es & Fs' & Es'). exists s'. split; [exact Fs'|].
    unfold has_node in Hq. destruct (node_at s q) as [x|] eqn:Ex; [|discriminate].
    destruct (Gr i q x Lq) as (x' & N' & _); [unfold node_get; rewrite Es; exact Ex|]. unfold node_get in N'. rewrite Es' in N'.
    unfold has_node. rewrite N'. reflexivity. }
  intros n s q key Fs Hq Lq. destruct (Keep n s Fs) as (i & s' & Es & Fs' & Es').
  unfold has_node in Hq. rewrite node_at_app in Hq. destruct (node_at s q) as [x|] eqn:Ex; [|discriminate]. cbn [node_at] in Hq.
  destruct (aget callsite_eqb key (s_calls x)) as [c|] eqn:Ec; [|discriminate].
  destruct (T i q key c Lq) as ((y & Ny & (i0 & v & P1 & P2)) & IK).
  { unfold calls_of, node_get. rewrite Es, Ex. apply (aget_In callsite_eqb callsite_eqb_spec). exact Ec. }
  split.
  - destruct (aget name_eqb (snd key) (sm_names m')) as [j|] eqn:Ej.
    + unfold sm_find. rewrite Ej. apply nth_error_Some. apply (ok_range m' (snd key) j W' Ej).
    + apply (aget_None_iff name_eqb name_eqb_spec) in Ej. contradiction.
  - exists s'. split; [exact Fs'|]. unfold node_get in Ny. rewrite Es' in Ny. unfold has_target, pos_at. rewrite Ny, P1, P2. reflexivity.
Qed.

(** The contents of the removed callsites are merged into the outline
    functions.  Summed over all copies of a function, outlined or inlined,
    nothing is lost or invented: not the instruction numbers of its lines, not
    the counts of its lines without inlined calls, not its call targets other
    than the flattened callees. *)
Theorem C09_merged k m num m' : (0 < k)%nat -> smap_ok m -> FlattenNestedInlineCallsites k m = Ok (num, m') ->
  (forall F l, map_sum (inst_obs l) F m' mod 2 ^ 64 = map_sum (inst_obs l) F m mod 2 ^ 64) /\
  (forall F l, ~ calls_in_map (fun key => fst key = l) F m ->
     map_sum (count_obs l) F m' mod 2 ^ 64 = map_sum (count_obs l) F m mod 2 ^ 64) /\
  (forall F l t, ~ calls_in_map (fun key => key = (l, t)) F m ->
     map_sum (target_obs l t) F m' mod 2 ^ 64 = map_sum (target_obs l t) F m mod 2 ^ 64).
Proof.
  intros kpos W E.
  assert (G : forall P F obs, ~ calls_in_map P F m -> obs [] = 0 ->
    (forall d s, pos_ok d -> pos_ok s -> eqm (obs (pos_add d s)) (obs d + obs s)) ->
    (forall key h pos, ~ P key -> obs (flatten_pos (fst key) (snd key) h pos) = obs pos) ->
    map_sum obs F m' mod 2 ^ 64 = map_sum obs F m mod 2 ^ 64).
  { intros P F obs H1 H2 H3 H4. destruct (flatten_core k m P F obs kpos W H1 H2 H3 H4) as (num' & m2 & R & Nm & E' & _ & _ & _ & _ & S2).
    assert (m2 = m') as -> by congruence. apply eqm_mod. exact S2. }
  split; [|split].
  - intros F l. apply (G (fun _ => False)); auto using inst_obs_add, inst_quiet.
    intros (n & s & _ & C). revert n C. induction s as [h t ts pos cs IH] using symbol_ind'. intros n C. cbn [calls_in] in C.
    assert (Q : forall l, (forall x, In x l -> In x cs) ->
      ~ fold_right (fun kc a => (n = F /\ False) \/ calls_in (fun _ => False) F (snd (fst kc)) (snd kc) \/ a) False l).
    { induction l0 as [|[k0 c0] l0 IHl]; intros Inc H; cbn [fold_right fst snd] in H; [exact H|].
      destruct H as [[_ H]|[H|H]]; [exact H| |].
      - apply (IH k0 c0 (Inc _ (or_introl eq_refl)) _ H).
      - apply IHl; [intros x Ix; apply Inc; right; exact Ix|exact H]. }
    apply (Q cs); auto.
  - intros F l H. apply (G (fun key => fst key = l)); auto using count_obs_add, count_quiet.
  - intros F l t H. apply (G (fun key => key = (l, t))); auto using target_obs_add, target_quiet.
Qed.

(** Without a limit nothing happens. *)
Theorem C09_no_limit m : FlattenNestedInlineCallsites 0 m = Ok (0, m).
Proof. reflexivity. Qed.

(** *** A recursive profile: F -> g -> F -> g *)
Definition x_F : name := [70].
Definition x_g : name := [103].
Definition x_leaf := Sym 0 5 0 [(1, PInfo 5 1 [])] [].
Definition x_F1 := Sym 0 9 0 [(1, PInfo 4 1 [])] [((2, x_g), x_leaf)].
Definition x_g1 := Sym 0 12 0 [(1, PInfo 3 1 [])] [((2, x_F), x_F1)].
Definition x_F0 := Sym 2 14 0 [(1, PInfo 2 1 [])] [((2, x_g), x_g1)].
Definition x_map := SMap [(x_F, O)] [x_F0].

Lemma u64_small x : 0 <= x -> x < 2 ^ 64 -> is_u64 x. Proof. unfold is_u64. lia. Qed.
Example x_map_ok : smap_ok x_map.
Proof.
  assert (P : forall c, 0 <= c -> c < 2 ^ 64 -> pos_ok [(1, PInfo c 1 [])]).
  { intros c H1 H2. split; [repeat constructor; intros []|]. constructor; [|constructor]. split; [apply u64_small; auto|].
    split; [apply u64_small; [discriminate|reflexivity]|]. split; constructor. }
  assert (One : forall h t p key c, 0 <= h < 2 ^ 64 -> 0 <= t < 2 ^ 64 -> pos_ok p -> sym_ok c -> sym_ok (Sym h t 0 p [(key, c)])).
  { intros h t p key c Hh Ht Hp Hc. constructor; auto; [repeat constructor; intros []|].
    intros k0 c0 [E|[]]. assert (c = c0) as <- by congruence. exact Hc. }
  assert (L : sym_ok x_leaf).
  { constructor; [apply u64_small; [discriminate|reflexivity]|apply u64_small; [discriminate|reflexivity]|apply P; [discriminate|reflexivity]|constructor|intros ? ? []]. }
  split; [split; [repeat constructor; intros []|reflexivity]|]. constructor; [|constructor].
  apply One; [split; [discriminate|reflexivity]|split; [discriminate|reflexivity]|apply P; [discriminate|reflexivity]|].
  apply One; [split; [discriminate|reflexivity]|split; [discriminate|reflexivity]|apply P; [discriminate|reflexivity]|].
  apply One; [split; [discriminate|reflexivity]|split; [discriminate|reflexivity]|apply P; [discriminate|reflexivity]|].
  exact L.
Qed.

Example C09_nonvacuous :
  (0 < 2)%nat /\ smap_ok x_map /\ has_node x_F0 [(2, x_g); (2, x_F); (2, x_g)] = true /\
  match FlattenNestedInlineCallsites 2 x_map with
  | Ok (num, m') => num = 1 /\ sm_names m' = [(x_F, O)] /\
      match sm_find m' x_F with
      | Some s => has_node s [(2, x_g)] = true /\ has_node s [(2, x_g); (2, x_F)] = false /\
                  has_target s [(2, x_g)] 2 x_F = true /\ count_at s [] 1 = 6 /\ count_at s [(2, x_g)] 1 = 8
      | None => False
      end
  | _ => False
  end /\
  match FlattenNestedInlineCallsites 1 x_map with
  | Ok (num, m') => num = 0 /\ map fst (sm_names m') = [x_F; x_g]
  | _ => False
  end.
Proof. split; [lia|]. split; [apply x_map_ok|]. split; [vm_compute; reflexivity|]. vm_compute. tauto. Qed.

(** ** What flattening does not do: keep the totals in line with the counts *)

(** The counts of all lines of a tree. *)
Fixpoint body_sum (s : symbol) : Z :=
  match s with
  | Sym _ _ _ pos cs => fold_right (fun e a => p_count (snd e) + a) 0 pos
                        + fold_right (fun kc a => body_sum (snd kc) + a) 0 cs
  end.
(** The total of a function is the sum of the counts of its lines, its inlined callees included. *)
Definition totals_fit (m : smap) : Prop := forall n s, sm_find m n = Some s -> s_total s = body_sum s.

(** With recursion through inlined functions the total of the outer function
    grows twice by the part merged into its own inlined callee: once by the
    merge and once as the change of the callee's total. *)
Theorem C09_totals_refuted :
  ~ (forall k m num m', (0 < k)%nat -> smap_ok m -> totals_fit m ->
       FlattenNestedInlineCallsites k m = Ok (num, m') -> totals_fit m').
Proof.
  intros H. destruct (FlattenNestedInlineCallsites 2 x_map) as [[num m']| |] eqn:E; [|discriminate E|discriminate E].
  assert (T : totals_fit x_map).
  { intros n s. unfold sm_find, x_map. cbn [sm_names aget]. destruct (name_eqb n x_F); [|discriminate].
    cbn [sm_heap nth_error]. intros Q. assert (s = x_F0) as -> by congruence. reflexivity. }
  specialize (H 2%nat x_map num m' ltac:(lia) x_map_ok T E).
  assert (V : match FlattenNestedInlineCallsites 2 x_map with Ok (_, m') => match sm_find m' x_F with Some s => s_total s =? body_sum s | None => true end | _ => true end = false)
    by (vm_compute; reflexivity).
  rewrite E in V. destruct (sm_find m' x_F) as [s|] eqn:Fs; [|discriminate]. specialize (H x_F s Fs). apply Z.eqb_neq in V. congruence.
Qed.

(** The returned number counts the functions whose total changed, not the functions that were flattened. *)
Theorem C09_number_refuted :
  ~ (forall k m num m', (0 < k)%nat -> smap_ok m -> FlattenNestedInlineCallsites k m = Ok (num, m') ->
       (exists n s, sm_find m n = Some s /\ ~ within_level k s) -> 0 < num).
Proof.
  intros H. destruct (FlattenNestedInlineCallsites 1 x_map) as [[num m']| |] eqn:E; [|discriminate E|discriminate E].
  assert (V : match FlattenNestedInlineCallsites 1 x_map with Ok (num, _) => num | _ => 1 end = 0) by (vm_compute; reflexivity).
  rewrite E in V. specialize (H 1%nat x_map num m' ltac:(lia) x_map_ok E).
  assert (0 < num); [|lia]. apply H. exists x_F, x_F0. split; [vm_compute; reflexivity|].
  intros Wl. specialize (Wl [(2, x_g)] eq_refl). cbn [length] in Wl. lia.
Qed.

Print Assumptions C09_flatten.
Print Assumptions C09_merged.
Print Assumptions C09_totals_refuted.
