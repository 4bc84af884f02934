(** C79: Symbol::EntryCount. *)
From Verif Require Import Base SrcOffsetModel SymbolModel FlattenPureProofs EntryModel EntrySpec.
From Coq Require Import Permutation.
Open Scope Z_scope.

Lemma max_is : max_offset = 10000 * 2 ^ 32.
Proof. vm_compute. reflexivity. Qed.
(** A fold that keeps the first smallest key below the one it starts with. *)
Lemma keep_first {X} (key val : X -> Z) (l : list X) : forall m0 v0,
  let '(m, v) := fold_left (fun (m : Z * Z) x => if key x <? fst m then (key x, val x) else m) l (m0, v0) in
  m <= m0 /\ (forall x, In x l -> m <= key x) /\ ((m = m0 /\ v = v0) \/ (m < m0 /\ exists x, In x l /\ key x = m /\ val x = v)).
Proof.
  induction l as [|x l IH]; intros m0 v0; cbn [fold_left fst].
  - split; [lia|]. split; [intros x []|auto].
  - destruct (Z.ltb_spec (key x) m0) as [L|L].
    + specialize (IH (key x) (val x)). destruct (fold_left _ l (key x, val x)) as [m v]. destruct IH as [A [B C]]. split; [lia|]. split; [intros y [<-|Hy]; [exact A|exact (B y Hy)]|].
      right. destruct C as [[-> ->]|[C [y [Hy E]]]]; [split; [exact L|]; exists x; split; [left; reflexivity|auto]|split; [lia|]; exists y; split; [right; exact Hy|exact E]].
    + specialize (IH m0 v0). destruct (fold_left _ l (m0, v0)) as [m v]. destruct IH as [A [B C]]. split; [exact A|]. split; [intros y [<-|Hy]; [lia|exact (B y Hy)]|].
      destruct C as [C|[C [y [Hy E]]]]; [auto|]. right. split; [exact C|]. exists y. split; [right; exact Hy|exact E].
Qed.

Theorem C79_entry_count s : entry_count s (EntryCount s).
Proof.
  induction s as [h t ts p c IH] using symbol_ind'. cbn [EntryCount]. unfold entry_calls, entry_pos.
  pose proof (keep_first fst (fun x : Z * pinfo => p_count (snd x)) p max_offset 0) as K. cbv beta in K.
  destruct (fold_left _ p (max_offset, 0)) as [m v]. destruct K as [A [B C]].
  pose proof (keep_first (fun x : callsite * Z => fst (fst x)) snd (map (fun x => (fst x, EntryCount (snd x))) c) m v) as K. cbv beta in K.
  destruct (fold_left _ _ (m, v)) as [m' v']. cbn [snd]. destruct K as [A' [B' C']]. rewrite max_is in *.
  assert (BC : forall o n s, In ((o, n), s) c -> m' <= o).
  { intros o n s H. apply (B' ((o, n), EntryCount s)). apply in_map_iff. exists ((o, n), s). auto. }
  assert (BP : forall o i, In (o, i) p -> m <= o) by (intros o i H; exact (B (o, i) H)).
  destruct C' as [[-> ->]|[L [[[o n] k] [H [E1 E2]]]]].
  - destruct C as [[-> ->]|[L [[o i] [H [E1 E2]]]]]; cbn [fst snd] in *.
    + apply EntryNone; unfold near; [intros o i H; specialize (BP o i H); lia|intros o n s H; specialize (BC o n s H); lia].
    + subst. apply (EntryPos h t ts p c m i); [exact H|unfold near; lia|split; assumption].
  - cbn [fst snd] in E1, E2. subst. apply in_map_iff in H as [[[o n'] s] [E H]]. cbn [fst snd] in E. injection E as -> -> <-.
    apply (EntryCall h t ts p c m' n s); [exact H|unfold near; lia|split; [intros o i Hi; specialize (BP o i Hi); lia|exact BC]|intros i Hi; specialize (BP _ _ Hi); lia|exact (IH _ _ H)].
Qed.
Print Assumptions C79_entry_count.

Lemma at_key {K A} (l : list (K * A)) k a b : NoDup (map fst l) -> In (k, a) l -> In (k, b) l -> a = b.
Proof.
  induction l as [|[k0 x] l IH]; [intros _ []|]. cbn [map fst]. intros ND. inversion ND as [|? ? N ND']; subst. intros [E|H] [E'|H'].
  - congruence.
  - injection E as -> ->. destruct N. apply (in_map fst) in H'. exact H'.
  - injection E' as -> ->. destruct N. apply (in_map fst) in H. exact H.
  - auto.
Qed.
Lemma at_site {A} (l : list (callsite * A)) o n n' a b : NoDup (map (fun x => fst (fst x)) l) -> In ((o, n), a) l -> In ((o, n'), b) l -> n = n' /\ a = b.
Proof.
  induction l as [|[[k0 m] x] l IH]; [intros _ []|]. cbn [map fst]. intros ND. inversion ND as [|? ? N ND']; subst. intros [E|H] [E'|H'].
  - injection E as -> -> ->. injection E' as -> ->. auto.
  - injection E as -> -> ->. destruct N. apply (in_map (fun x => fst (fst x))) in H'. exact H'.
  - injection E' as -> -> ->. destruct N. apply (in_map (fun x => fst (fst x))) in H. exact H.
  - auto.
Qed.
(** With one callee at a location, there is one such count, ... *)
Theorem C79_unique s k : one_callee s -> (entry_count s k <-> k = EntryCount s).
Proof.
  intros OC. split; [|intros ->; apply C79_entry_count]. pose proof (C79_entry_count s) as H. revert H. generalize (EntryCount s) as k'. revert k OC.
  induction s as [h t ts p c IH] using symbol_ind'. intros k OC k' H' H. inversion OC as [h0 t0 ts0 p0 c0 NP NC OI]; subst.
  inversion H as [h0 t0 ts0 p0 c0 o i I N F|h0 t0 ts0 p0 c0 o n s k0 I N F NI E|h0 t0 ts0 p0 c0 X Y]; subst;
  inversion H' as [h0 t0 ts0 p0 c0 o' i' I' N' F'|h0 t0 ts0 p0 c0 o' n' s' k0 I' N' F' NI' E'|h0 t0 ts0 p0 c0 X' Y']; subst.
  - destruct F as [F1 F2], F' as [F1' F2']. pose proof (F1 _ _ I'). pose proof (F1' _ _ I). assert (o = o') by lia. subst. f_equal. exact (at_key _ _ _ _ NP I I').
  - destruct F as [F1 F2], F' as [F1' F2']. pose proof (F2 _ _ _ I'). pose proof (F1' _ _ I). assert (o = o') by lia. subst. destruct (NI' _ I).
  - destruct (X' _ _ I N).
  - destruct F as [F1 F2], F' as [F1' F2']. pose proof (F1 _ _ I'). pose proof (F2' _ _ _ I). assert (o = o') by lia. subst. destruct (NI _ I').
  - destruct F as [F1 F2], F' as [F1' F2']. pose proof (F2 _ _ _ I'). pose proof (F2' _ _ _ I). assert (o = o') by lia. subst. destruct (at_site _ _ _ _ _ _ NC I I') as [-> ->].
    exact (IH _ _ I' k (OI _ _ I') k' E' E).
  - destruct (Y' _ _ _ I N).
  - destruct (X _ _ I' N').
  - destruct (Y _ _ _ I' N').
  - reflexivity.
Qed.
Print Assumptions C79_unique.

Lemma Forall2_In_r {A B} (P : A -> B -> Prop) l l' b : Forall2 P l l' -> In b l' -> exists a, In a l /\ P a b.
Proof. induction 1 as [|x y l l' X F IH]; [intros []|]. intros [<-|H]; [exists x; split; [left; reflexivity|exact X]|]. destruct (IH H) as [a [A1 A2]]. exists a. split; [right; exact A1|exact A2]. Qed.
Lemma Forall2_In_l {A B} (P : A -> B -> Prop) l l' a : Forall2 P l l' -> In a l -> exists b, In b l' /\ P a b.
Proof. induction 1 as [|x y l l' X F IH]; [intros []|]. intros [<-|H]; [exists y; split; [left; reflexivity|exact X]|]. destruct (IH H) as [b [A1 A2]]. exists b. split; [right; exact A1|exact A2]. Qed.
Lemma moved s : forall s' k, reordered s s' -> entry_count s k -> entry_count s' k.
Proof.
  induction s as [h t ts p c IH] using symbol_ind'. intros s' k R H. inversion R as [h0 t0 ts0 p0 p' c0 c' q PP PC F]; subst.
  assert (IP : forall x, In x p' <-> In x p) by (intros x; split; apply Permutation_in; [apply Permutation_sym, PP|exact PP]).
  assert (IC : forall o n s, In ((o, n), s) c -> exists s', In ((o, n), s') c' /\ reordered s s').
  { intros o n s Hs. apply (Permutation_in _ PC) in Hs. destruct (Forall2_In_l _ _ _ _ F Hs) as [[[o' n'] s'] [A [E B]]]. cbn [fst snd] in *. injection E as -> ->. eauto. }
  assert (CI : forall o n s', In ((o, n), s') c' -> exists s, In ((o, n), s) c).
  { intros o n s' Hs. destruct (Forall2_In_r _ _ _ _ F Hs) as [[[o' n'] s] [A [E B]]]. cbn [fst] in E. injection E as -> ->. exists s. exact (Permutation_in _ (Permutation_sym PC) A). }
  assert (FO : forall o, first_of o p c -> first_of o p' c').
  { intros o [A B]. split; [intros o' i Hi; apply (A o' i), IP, Hi|]. intros o' n s' Hs. destruct (CI _ _ _ Hs) as [s Hs']. exact (B _ _ _ Hs'). }
  inversion H as [h0 t0 ts0 p0 c0 o i I N FF|h0 t0 ts0 p0 c0 o n s k0 I N FF NI E|h0 t0 ts0 p0 c0 X Y]; subst.
  - apply (EntryPos _ _ _ _ _ o i); [apply IP, I|exact N|apply FO, FF].
  - destruct (IC _ _ _ I) as [s' [I' RS]]. apply (EntryCall _ _ _ _ _ o n s' k); [exact I'|exact N|apply FO, FF|intros i Hi; apply (NI i), IP, Hi|exact (IH _ _ I s' k RS E)].
  - apply EntryNone; [intros o i Hi; apply (X o i), IP, Hi|]. intros o n s' Hs. destruct (CI _ _ _ Hs) as [s Hs']. exact (Y _ _ _ Hs').
Qed.
(** ... whatever the order of the tables. *)
Theorem C79_order_independent s s' : one_callee s' -> reordered s s' -> EntryCount s = EntryCount s'.
Proof. intros O R. apply C79_unique; [exact O|]. apply (moved s s' _ R), C79_entry_count. Qed.
Print Assumptions C79_order_independent.

Definition x_leaf (k : Z) : symbol := Sym 0 k 0 [(2 ^ 32, PInfo k 1 [])] [].
Definition x_nested : symbol := Sym 0 9 0 [(3 * 2 ^ 32, PInfo 4 1 [])] [((2 * 2 ^ 32, [97]), x_leaf 5)].
Example C79_nonvacuous : one_callee x_nested /\ EntryCount x_nested = 5.
Proof.
  split; [|vm_compute; reflexivity]. constructor; [repeat constructor; intros []|repeat constructor; intros []|]. intros k s [E|[]]. injection E as <- <-.
  constructor; [repeat constructor; intros []|constructor|intros k s []].
Qed.
(** Two callees inlined at the same location: the answer depends on the order of
    the hash table. *)
Theorem C79_order_independent_refuted : exists s s', reordered s s' /\ EntryCount s <> EntryCount s'.
Proof.
  exists (Sym 0 3 0 [] [((2 ^ 32, [97]), x_leaf 1); ((2 ^ 32, [98]), x_leaf 2)]), (Sym 0 3 0 [] [((2 ^ 32, [98]), x_leaf 2); ((2 ^ 32, [97]), x_leaf 1)]).
  split; [|vm_compute; discriminate]. apply (Reordered _ _ _ _ _ _ _ [((2 ^ 32, [98]), x_leaf 2); ((2 ^ 32, [97]), x_leaf 1)]); [constructor|apply perm_swap|].
  assert (L : forall k, reordered (x_leaf k) (x_leaf k)) by (intros k; apply (Reordered _ _ _ _ _ _ _ []); [apply Permutation_refl|constructor|constructor]).
  constructor; [split; [reflexivity|apply L]|]. constructor; [split; [reflexivity|apply L]|constructor].
Qed.
Print Assumptions C79_order_independent_refuted.
