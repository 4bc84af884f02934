(** C09, continued: the head count of an outlined callee and the call it leaves. *)
From Verif Require Import Base AssocFold SymbolModel SymbolSpec SymbolProofs AttribProofs AfdoModel AfdoProofs
  FlattenModel FlattenSpec FlattenPureProofs FlattenNestProofs.

(** *** Specification: where execution of a function body is first seen *)
(** a callsite before another: by location, then by callee name *)
Definition before (a b : callsite) : Prop :=
  fst a < fst b \/ (fst a = fst b /\ name_ltb (snd a) (snd b) = true).
Inductive entry_count : symbol -> Z -> Prop :=
| ec_head s : s_head s <> 0 -> entry_count s (s_head s)
| ec_line s l i : s_head s = 0 -> aget Z.eqb l (s_pos s) = Some i ->
    (forall l', In l' (akeys (s_pos s)) -> l <= l') -> (forall e, In e (akeys (s_calls s)) -> l <= fst e) ->
    entry_count s (p_count i)
| ec_call s e c h : s_head s = 0 -> aget callsite_eqb e (s_calls s) = Some c ->
    (forall l, In l (akeys (s_pos s)) -> fst e < l) ->
    (forall e', In e' (akeys (s_calls s)) -> e' = e \/ before e e') ->
    entry_count c h -> entry_count s h
| ec_none s : s_head s = 0 -> s_pos s = [] -> s_calls s = [] -> entry_count s 0.
(** no location is the sentinel 2^64 - 1 *)
Inductive locs_ok : symbol -> Prop :=
| locs_ok_intro s : (forall l, In l (akeys (s_pos s)) -> l < 2 ^ 64 - 1) ->
    (forall e c, In (e, c) (s_calls s) -> fst e < 2 ^ 64 - 1 /\ locs_ok c) -> locs_ok s.

Lemma min_pos_spec l : match min_pos l with
  | None => l = []
  | Some b => In b l /\ forall x, In x l -> b <= x end.
Proof.
  unfold min_pos.
  set (step := fun best c => match best with None => Some c | Some b => if c <? b then Some c else best end).
  assert (G : forall l b, exists b', fold_left step l (Some b) = Some b' /\ (b' = b \/ In b' l) /\ b' <= b /\ forall x, In x l -> b' <= x).
  { induction l0 as [|y l0 IH]; intros b; cbn [fold_left].
    - exists b. split; [reflexivity|]. split; [auto|]. split; [lia|intros ? []].
    - change (step (Some b) y) with (if y <? b then Some y else Some b). destruct (Z.ltb_spec y b).
      + destruct (IH y) as (b' & E & A & B & C). exists b'. split; [exact E|]. split; [cbn [In]; intuition congruence|].
        split; [lia|]. intros x [<-|Ix]; [exact B|auto].
      + destruct (IH b) as (b' & E & A & B & C). exists b'. split; [exact E|]. split; [cbn [In]; tauto|].
        split; [exact B|]. intros x [<-|Ix]; [lia|auto]. }
  destruct l as [|y l]; [reflexivity|]. cbn [fold_left]. change (step None y) with (Some y).
  destruct (G l y) as (b' & E & A & B & C). rewrite E. split; [cbn [In]; intuition congruence|].
  intros x [<-|Ix]; [exact B|auto].
Qed.
Lemma callsite_ltb_before a b : callsite_ltb a b = true <-> before a b.
Proof.
  unfold callsite_ltb, before. destruct (Z.eqb_spec (fst a) (fst b)) as [E|Ne].
  - rewrite E. split; [auto|]. intros [H|[_ H]]; [lia|exact H].
  - rewrite Z.ltb_lt. split; [auto|]. intros [H|[H _]]; [exact H|congruence].
Qed.
Lemma before_trans a b c : before a b -> before b c -> before a c.
Proof.
  unfold before. intros [A|[A A']] [B|[B B']]; [left; lia|left; lia|left; lia|].
  right. split; [congruence|]. eapply name_ltb_trans; eauto.
Qed.
Lemma before_total a b : a = b \/ before a b \/ before b a.
Proof.
  destruct a as [la na], b as [lb nb]. unfold before. cbn [fst snd].
  destruct (Z.lt_trichotomy la lb) as [H|[H|H]]; auto.
  subst lb. destruct (name_ltb na nb) eqn:A; [auto|]. destruct (name_ltb nb na) eqn:B; [auto|].
  left. rewrite (name_ltb_total na nb A B). reflexivity.
Qed.
Lemma min_callsite_spec l : match min_callsite l with
  | None => l = []
  | Some b => In b l /\ forall x, In x l -> x = b \/ before b x end.
Proof.
  unfold min_callsite.
  set (step := fun best c => match best with None => Some c | Some b => if callsite_ltb c b then Some c else best end).
  assert (G : forall l b, exists b', fold_left step l (Some b) = Some b' /\ (b' = b \/ In b' l) /\ (b = b' \/ before b' b) /\
    forall x, In x l -> x = b' \/ before b' x).
  { induction l0 as [|y l0 IH]; intros b; cbn [fold_left].
    - exists b. split; [reflexivity|]. split; [auto|]. split; [auto|intros ? []].
    - change (step (Some b) y) with (if callsite_ltb y b then Some y else Some b). destruct (callsite_ltb y b) eqn:L.
      + apply callsite_ltb_before in L. destruct (IH y) as (b' & E & A & B & C). exists b'. split; [exact E|].
        split; [cbn [In]; intuition congruence|].
        split; [right; destruct B as [->|B]; [exact L|eapply before_trans; eauto]|]. intros x [<-|Ix]; [exact B|auto].
      + destruct (IH b) as (b' & E & A & B & C). exists b'. split; [exact E|]. split; [cbn [In]; tauto|].
        split; [exact B|]. intros x [<-|Ix]; [|auto].
        assert (Q : y = b \/ before b y).
        { destruct (before_total y b) as [X|[X|X]]; auto. apply callsite_ltb_before in X. congruence. }
        destruct Q as [->|Q]; [exact B|]. right. destruct B as [->|B]; [exact Q|eapply before_trans; eauto]. }
  destruct l as [|y l]; [reflexivity|]. cbn [fold_left]. change (step None y) with (Some y).
  destruct (G l y) as (b' & E & A & B & C). rewrite E. split; [cbn [In]; intuition congruence|].
  intros x [<-|Ix]; [exact B|auto].
Qed.

(** The head count given to an outlined callee is the count of whatever comes
    first in its body: the first line, or the first inlined call, whose entry
    is estimated in the same way. *)
Theorem C09_head_estimate s : sym_ok s -> locs_ok s -> entry_count s (s_head (EstimateHeadCount s)).
Proof.
  induction s as [h t ts pos cs IH] using symbol_ind'. intros O Lo. inversion O as [? ? ? ? ? Hh Ht Hp Hn Hc]; subst.
  inversion Lo as [? Ll Lc]; subst. cbn [s_pos s_calls] in *. cbn [EstimateHeadCount].
  destruct (Z.eqb_spec h 0) as [->|Ne]; cbn [negb]; [|apply (ec_head (Sym h t ts pos cs)); exact Ne].
  pose proof (min_pos_spec (akeys pos)) as MP. pose proof (min_callsite_spec (akeys cs)) as MC.
  assert (Call : forall e c, aget callsite_eqb e cs = Some c ->
     cget e (map (fun kc => (fst kc, if callsite_eqb (fst kc) e then EstimateHeadCount (snd kc) else snd kc)) cs) = EstimateHeadCount c).
  { clear. intros e c E. unfold cget.
    assert (A : aget callsite_eqb e (map (fun kc => (fst kc, if callsite_eqb (fst kc) e then EstimateHeadCount (snd kc) else snd kc)) cs)
                = Some (EstimateHeadCount c)).
    { induction cs as [|[k0 c0] cs IH]; cbn [aget] in E; [discriminate|]. cbn [map aget fst snd].
      destruct (callsite_eqb_spec e k0) as [->|Ne]; [|auto]. destruct (callsite_eqb_spec k0 k0); [|congruence].
      assert (c0 = c) as -> by congruence. reflexivity. }
    rewrite A. reflexivity. }
  destruct (min_pos (akeys pos)) as [l|].
  - destruct MP as [Il Ml].
    destruct (aget Z.eqb l pos) as [i|] eqn:El.
    2:{ apply (aget_None_iff Z.eqb Z.eqb_spec) in El. contradiction. }
    assert (Pl : p_count (pget l pos) = p_count i) by (unfold pget; rewrite El; reflexivity). rewrite Pl.
    destruct (min_callsite (akeys cs)) as [e|].
    + destruct MC as [Ie Me]. destruct (Z.leb_spec l (fst e)) as [Le|Lt].
      * cbn [s_head]. apply (ec_line (Sym 0 t ts pos cs) l i); cbn [s_head s_pos s_calls]; auto.
        intros e' Ie'. destruct (Me e' Ie') as [->|[B|[B _]]]; lia.
      * cbn [s_head]. destruct (aget callsite_eqb e cs) as [c|] eqn:Ec.
        2:{ apply (aget_None_iff callsite_eqb callsite_eqb_spec) in Ec. contradiction. }
        rewrite (Call e c Ec). apply (ec_call (Sym 0 t ts pos cs) e c); cbn [s_head s_pos s_calls]; auto.
        -- intros l' I'. specialize (Ml l' I'). lia.
        -- apply aget_In in Ec; [|apply callsite_eqb_spec]. apply (IH e c Ec); [eauto|]. apply (Lc e c Ec).
    + cbn [s_head]. apply (ec_line (Sym 0 t ts pos cs) l i); cbn [s_head s_pos s_calls]; auto.
      rewrite MC. intros e [].
  - destruct (min_callsite (akeys cs)) as [e|].
    + destruct MC as [Ie Me]. destruct (aget callsite_eqb e cs) as [c|] eqn:Ec.
      2:{ apply (aget_None_iff callsite_eqb callsite_eqb_spec) in Ec. contradiction. }
      pose proof Ec as Ic. apply aget_In in Ic; [|apply callsite_eqb_spec]. destruct (Lc e c Ic) as [Le Lcc].
      destruct (Z.leb_spec (2 ^ 64 - 1) (fst e)) as [Q|Q]; [lia|].
      cbn [s_head]. rewrite (Call e c Ec). apply (ec_call (Sym 0 t ts pos cs) e c); cbn [s_head s_pos s_calls]; auto.
      * rewrite MP. intros l [].
      * apply (IH e c Ic); eauto.
    + cbn [s_head]. apply ec_none; cbn [s_head s_pos s_calls]; auto.
      * destruct pos; [reflexivity|discriminate].
      * destruct cs; [reflexivity|discriminate].
Qed.

(** The estimate is unique, so this determines the value. *)
Theorem C09_head_estimate_unique s : sym_ok s -> forall h h', entry_count s h -> entry_count s h' -> h = h'.
Proof.
  intros O h h' E. revert h' O. induction E as [s H|s l i H El Ml Mc|s e c h H Ec Ml Mc E IH|s H Ep Ec]; intros h' O E'.
  - inversion E'; subst; congruence.
  - inversion E'; subst; [congruence| | |].
    + assert (l = l0).
      { apply aget_In in El; [|apply Z.eqb_spec]. apply aget_In in H1; [|apply Z.eqb_spec].
        apply (in_map fst) in El. apply (in_map fst) in H1. specialize (Ml _ H1). specialize (H2 _ El). cbn [fst] in *. lia. }
      subst l0. congruence.
    + exfalso. apply aget_In in El; [|apply Z.eqb_spec]. apply aget_In in H1; [|apply callsite_eqb_spec].
      apply (in_map fst) in El. apply (in_map fst) in H1. specialize (Mc _ H1). specialize (H2 _ El). cbn [fst] in *. lia.
    + rewrite H1 in El. discriminate.
  - assert (Oc : sym_ok c) by (eapply sym_ok_child; eauto).
    inversion E'; subst; [congruence| | |].
    + exfalso. apply aget_In in H1; [|apply Z.eqb_spec]. apply aget_In in Ec; [|apply callsite_eqb_spec].
      apply (in_map fst) in Ec. apply (in_map fst) in H1. specialize (Ml _ H1). specialize (H3 _ Ec). cbn [fst] in *. lia.
    + assert (e = e0).
      { pose proof Ec as Ic. pose proof H1 as I1. apply aget_In in Ic; [|apply callsite_eqb_spec]. apply aget_In in I1; [|apply callsite_eqb_spec].
        apply (in_map fst) in Ic. apply (in_map fst) in I1. cbn [fst] in *.
        destruct (Mc _ I1) as [X|B1]; [congruence|]. destruct (H3 _ Ic) as [X|B2]; [exact X|].
        exfalso. pose proof (before_trans _ _ _ B1 B2) as B3. destruct B3 as [B|[_ B]]; [lia|]. rewrite name_ltb_irrefl in B. discriminate. }
      subst e0. assert (c0 = c) as -> by congruence. apply IH; auto.
    + rewrite H2 in Ec. discriminate.
  - inversion E'; subst; [congruence| | |reflexivity].
    + rewrite Ep in H1. discriminate.
    + rewrite Ec in H1. discriminate.
Qed.

(** What one flattened callsite leaves in the caller: the call target grows by
    the head count of the callee, and the count of the line becomes at least
    both; every other line is untouched; the total follows the count. *)
Theorem C09_call_left s loc g head : sym_ok s -> is_u64 head ->
  let s' := flatten_into loc g head s in
  target_at s' [] loc g = (target_at s [] loc g + head) mod 2 ^ 64 /\
  count_at s' [] loc = Z.max (Z.max (count_at s [] loc) head) (target_at s' [] loc g) /\
  (forall t, t <> g -> target_at s' [] loc t = target_at s [] loc t) /\
  (forall l t, l <> loc -> count_at s' [] l = count_at s [] l /\ target_at s' [] l t = target_at s [] l t) /\
  s_total s' = (s_total s + (count_at s' [] loc - count_at s [] loc)) mod 2 ^ 64.
Proof.
  intros O Hh s'. unfold s'. destruct O as [h t ts pos cs Hh0 Ht Hp Hn Hc]. cbn [flatten_into].
  unfold target_at, count_at, pos_at. cbn [node_at s_pos s_total].
  assert (A : forall l, aget Z.eqb l (flatten_pos loc g head pos) =
    if l =? loc then Some (PInfo (Z.max (Z.max (p_count (pget loc pos)) head) (add64 (tget g (p_targets (pget loc pos))) head))
                                 (p_ninst (pget loc pos)) (aset name_eqb g (add64 (tget g (p_targets (pget loc pos))) head) (p_targets (pget loc pos))))
    else aget Z.eqb l pos).
  { intros l. unfold flatten_pos. apply aget_aset. apply Z.eqb_spec. }
  assert (Pg : pget loc (flatten_pos loc g head pos) =
     PInfo (Z.max (Z.max (p_count (pget loc pos)) head) (add64 (tget g (p_targets (pget loc pos))) head))
                                 (p_ninst (pget loc pos)) (aset name_eqb g (add64 (tget g (p_targets (pget loc pos))) head) (p_targets (pget loc pos)))).
  { unfold pget at 1. rewrite A, Z.eqb_refl. reflexivity. }
  rewrite Pg, A, Z.eqb_refl. cbn [p_count p_targets].
  assert (T : forall g', match aget Z.eqb loc pos with Some i => tget g' (p_targets i) | None => 0 end = tget g' (p_targets (pget loc pos))).
  { intros g'. unfold pget. destruct (aget Z.eqb loc pos); reflexivity. }
  assert (C : match aget Z.eqb loc pos with Some i => p_count i | None => 0 end = p_count (pget loc pos)).
  { unfold pget. destruct (aget Z.eqb loc pos); reflexivity. }
  rewrite !T, C. unfold tget at 1. rewrite aget_aset_same by apply name_eqb_spec.
  split; [reflexivity|]. split; [unfold tget at 2; rewrite aget_aset_same by apply name_eqb_spec; reflexivity|]. split.
  { intros t' Ne. rewrite T. unfold tget at 1. rewrite aget_aset_other by auto using name_eqb_spec. reflexivity. }
  split; [|reflexivity].
  intros l t' Ne. rewrite A. destruct (Z.eqb_spec l loc); [congruence|]. auto.
Qed.

Example C09_head_nonvacuous :
  let c := Sym 0 7 0 [(3, PInfo 7 1 [])] [] in
  let s := Sym 0 9 0 [(4, PInfo 2 1 [])] [((2, [98]), c); ((2, [97]), Sym 0 0 0 [(1, PInfo 11 1 [])] [])] in
  sym_ok s /\ locs_ok s /\ s_head (EstimateHeadCount s) = 11 /\ s_head (EstimateHeadCount (Sym 0 9 0 [(4, PInfo 2 1 [])] [((5, [98]), c)])) = 2.
Proof.
  assert (P : forall l c, 0 <= c -> c < 2 ^ 64 -> pos_ok [(l, PInfo c 1 [])]).
  { intros l c H1 H2. split; [repeat constructor; intros []|]. constructor; [|constructor]. split; [split; auto|].
    split; [split; [discriminate|reflexivity]|]. split; constructor. }
  assert (U : forall x, 0 <= x -> x < 2 ^ 64 -> is_u64 x) by (intros; split; auto).
  assert (Leaf : forall t l c, 0 <= t -> t < 2 ^ 64 -> 0 <= c -> c < 2 ^ 64 -> sym_ok (Sym 0 t 0 [(l, PInfo c 1 [])] [])).
  { intros t l c H1 H2 H3 H4. constructor; [apply U; [discriminate|reflexivity]|apply U; auto|auto|constructor|intros ? ? []]. }
  assert (LL : forall t l c, l < 2 ^ 64 - 1 -> locs_ok (Sym 0 t 0 [(l, PInfo c 1 [])] [])).
  { intros t l c H. constructor; cbn [s_pos s_calls akeys map fst]; [intros x [<-|[]]; exact H|intros ? ? []]. }
  intros c s. split.
  { constructor; [apply U; [discriminate|reflexivity]|apply U; [discriminate|reflexivity]|apply P; [discriminate|reflexivity]| |].
    - cbn. constructor; [intros [E|[]]; discriminate|]. constructor; [intros []|constructor].
    - intros k0 c0 [E|[E|[]]].
      + assert (c0 = c) as -> by congruence. apply Leaf; first [discriminate|reflexivity].
      + assert (c0 = Sym 0 0 0 [(1, PInfo 11 1 [])] []) as -> by congruence. apply Leaf; first [discriminate|reflexivity]. }
  split.
  { constructor; cbn [s s_pos s_calls akeys map fst].
    - intros x [<-|[]]. reflexivity.
    - intros e c0 [E|[E|[]]].
      + assert (e = (2, [98]) /\ c0 = c) as [-> ->] by (split; congruence). split; [reflexivity|]. apply LL; reflexivity.
      + assert (e = (2, [97]) /\ c0 = Sym 0 0 0 [(1, PInfo 11 1 [])] []) as [-> ->] by (split; congruence). split; [reflexivity|]. apply LL; reflexivity. }
  split; vm_compute; reflexivity.
Qed.

Print Assumptions C09_head_estimate.
Print Assumptions C09_call_left.
