(** C78: what dump_gcov prints. *)
From Verif Require Import Base SymbolModel AfdoModel ISort WriterModel WriterProofs SymbolProofs AfdoProofs FlattenPureProofs OverlapProps DumpModel DumpSpec DumpProofs.
From Coq Require Import Ascii String.
From Coq Require Import List Permutation Sorted.
Open Scope string_scope.
Open Scope list_scope.
Open Scope Z_scope.

Lemma sorted_perm_eq {A} (R : A -> A -> Prop) l : forall l', (forall x y, In x l -> In y l -> R x y -> R y x -> x = y) ->
  StronglySorted R l -> StronglySorted R l' -> Permutation l l' -> l = l'.
Proof.
  induction l as [|x l IH]; intros l' AS S S' P; [apply Permutation_nil in P; auto|].
  destruct l' as [|y l']; [apply Permutation_sym, Permutation_nil in P; discriminate|].
  inversion S as [|? ? Sl F]; subst. inversion S' as [|? ? Sl' F']; subst. rewrite Forall_forall in F, F'.
  assert (E : x = y).
  { assert (Hy : In y (x :: l)) by (apply (Permutation_in y (Permutation_sym P)); left; reflexivity). assert (Hx : In x (y :: l')) by (apply (Permutation_in x P); left; reflexivity).
    destruct Hy as [Q|Hy]; [exact Q|]. destruct Hx as [Q|Hx]; [auto|]. apply AS; [left; reflexivity|right; exact Hy|exact (F y Hy)|exact (F' x Hx)]. }
  subst y. f_equal. apply IH; [intros a b Ha Hb; apply AS; right; assumption|exact Sl|exact Sl'|]. apply Permutation_cons_inv in P. exact P.
Qed.
Lemma isort_perm_eq {A} (leb : A -> A -> bool) l l' : (forall x y, leb x y = true \/ leb y x = true) -> (forall x y z, leb x y = true -> leb y z = true -> leb x z = true) ->
  (forall x y, In x l -> In y l -> leb x y = true -> leb y x = true -> x = y) -> Permutation l l' -> isort leb l = isort leb l'.
Proof.
  intros T R AS P. apply (sorted_perm_eq (le_prop leb)); [|apply isort_sorted; assumption|apply isort_sorted; assumption|].
  - intros x y Hx Hy. apply AS; eapply isort_In; eassumption.
  - eapply perm_trans; [apply Permutation_sym, isort_perm|]. eapply perm_trans; [exact P|apply isort_perm].
Qed.

(** * The orders *)
Lemma target_total x y : target_leb x y = true \/ target_leb y x = true.
Proof.
  unfold target_leb. rewrite (Z.eqb_sym (snd y)). destruct (Z.eqb_spec (snd x) (snd y)); [|destruct (Z.ltb_spec (snd y) (snd x)), (Z.ltb_spec (snd x) (snd y)); auto; lia].
  destruct (name_ltb (fst x) (fst y)) eqn:A; [|auto]. destruct (name_ltb (fst y) (fst x)) eqn:B; [|auto]. pose proof (name_ltb_trans _ _ _ A B) as C. rewrite name_ltb_irrefl in C. discriminate.
Qed.
Lemma nltb_trans a b c : name_ltb b a = false -> name_ltb c b = false -> name_ltb c a = false.
Proof.
  intros H G. destruct (name_ltb c a) eqn:E; [|reflexivity]. exfalso. destruct (name_ltb a b) eqn:F.
  - rewrite (name_ltb_trans _ _ _ E F) in G. discriminate.
  - pose proof (name_ltb_total _ _ H F). subst. congruence.
Qed.
Lemma target_trans x y z : target_leb x y = true -> target_leb y z = true -> target_leb x z = true.
Proof.
  unfold target_leb. destruct (Z.eqb_spec (snd x) (snd y)), (Z.eqb_spec (snd y) (snd z)), (Z.eqb_spec (snd x) (snd z)); intros H G; try lia; rewrite ?Z.ltb_lt in *; try lia.
  apply negb_true_iff in H, G. apply negb_true_iff. eapply nltb_trans; eassumption.
Qed.
Lemma target_antisym x y : target_leb x y = true -> target_leb y x = true -> x = y.
Proof.
  unfold target_leb. destruct x as [n k], y as [n' k']. cbn [fst snd]. rewrite (Z.eqb_sym k'). destruct (Z.eqb_spec k k'); rewrite ?Z.ltb_lt; [|lia]. rewrite !negb_true_iff. intros A B. subst. f_equal. apply name_ltb_total; assumption.
Qed.
Lemma targets_eq l l' : isort target_leb l = isort target_leb l' <-> Permutation l l'.
Proof.
  split; intros H.
  - eapply perm_trans; [apply (isort_perm target_leb)|]. rewrite H. apply Permutation_sym, isort_perm.
  - apply isort_perm_eq; [apply target_total|apply target_trans|intros; apply target_antisym; assumption|exact H].
Qed.
Lemma callsite_total x y : callsite_leb x y = true \/ callsite_leb y x = true.
Proof.
  unfold callsite_leb. rewrite (Z.eqb_sym (fst y)). destruct (Z.eqb_spec (fst x) (fst y)); [|destruct (Z.ltb_spec (fst y) (fst x)), (Z.ltb_spec (fst x) (fst y)); auto; lia].
  destruct (name_ltb (snd x) (snd y)) eqn:A; [|auto]. destruct (name_ltb (snd y) (snd x)) eqn:B; [|auto]. pose proof (name_ltb_trans _ _ _ A B) as C. rewrite name_ltb_irrefl in C. discriminate.
Qed.
Lemma callsite_trans x y z : callsite_leb x y = true -> callsite_leb y z = true -> callsite_leb x z = true.
Proof.
  unfold callsite_leb. destruct (Z.eqb_spec (fst x) (fst y)), (Z.eqb_spec (fst y) (fst z)), (Z.eqb_spec (fst x) (fst z)); intros H G; try lia; rewrite ?Z.ltb_lt in *; try lia.
  apply negb_true_iff in H, G. apply negb_true_iff. eapply nltb_trans; eassumption.
Qed.
Lemma callsite_antisym x y : callsite_leb x y = true -> callsite_leb y x = true -> x = y.
Proof.
  unfold callsite_leb. destruct x as [k n], y as [k' n']. cbn [fst snd]. rewrite (Z.eqb_sym k'). destruct (Z.eqb_spec k k'); rewrite ?Z.ltb_lt; [|lia]. rewrite !negb_true_iff. intros A B. subst. f_equal. apply name_ltb_total; assumption.
Qed.
Lemma key_unique {K A} (l : list (K * A)) x y : NoDup (map fst l) -> In x l -> In y l -> fst x = fst y -> x = y.
Proof.
  intros ND. induction l as [|z l IH]; [intros []|]. cbn [map] in ND. inversion ND as [|? ? N ND']; subst. intros [->|Hx] [->|Hy] E; auto.
  - destruct N. rewrite E. apply in_map, Hy.
  - destruct N. rewrite <- E. apply in_map, Hx.
Qed.

(** * Symbols and trees *)
Definition pos_image (p : Z * pinfo) : Z * (Z * list (name * Z)) := (fst p, (p_count (snd p), isort target_leb (p_targets (snd p)))).
Definition call_image (c : callsite * symbol) : callsite * tree := (fst c, tree_of (snd c)).
Lemma tree_of_eq h t ts p c : tree_of (Sym h t ts p c) = T t (isort pos_leb (map pos_image p)) (isort call_leb (map call_image c)).
Proof. cbn [tree_of]. f_equal. apply (isort_map pos_image). reflexivity. Qed.
Lemma pos_isort p p' : NoDup (map fst p) -> (isort pos_leb (map pos_image p) = isort pos_leb (map pos_image p') <-> Permutation (map pos_image p) (map pos_image p')).
Proof.
  intros ND. assert (ND' : NoDup (map fst (map pos_image p))) by (rewrite map_map; exact ND). split; intros H.
  - eapply perm_trans; [apply (isort_perm pos_leb)|]. rewrite H. apply Permutation_sym, isort_perm.
  - apply isort_perm_eq; [| | |exact H]; unfold pos_leb.
    + intros x y. destruct (Z.leb_spec (fst x) (fst y)), (Z.leb_spec (fst y) (fst x)); auto; lia.
    + intros x y z. rewrite !Z.leb_le. lia.
    + intros x y Hx Hy. rewrite !Z.leb_le. intros A B. apply (key_unique _ x y ND' Hx Hy). lia.
Qed.
Lemma call_isort (c c' : list (callsite * tree)) : NoDup (map fst c) -> (isort call_leb c = isort call_leb c' <-> Permutation c c').
Proof.
  intros ND. split; intros H.
  - eapply perm_trans; [apply (isort_perm call_leb)|]. rewrite H. apply Permutation_sym, isort_perm.
  - apply isort_perm_eq; [intros; apply callsite_total|intros x y z; apply callsite_trans| |exact H]. intros x y Hx Hy A B. apply (key_unique _ x y ND Hx Hy). apply callsite_antisym; assumption.
Qed.

Lemma tree_good s : symbol_ok s -> tree_ok (tree_of s).
Proof.
  induction s as [h t ts pos calls IH] using symbol_ind'. intros OK. inversion OK as [h0 t0 ts0 p0 c0 H1 H2 H3 N1 N2 HP HC]; subst. rewrite tree_of_eq. constructor; [exact (proj1 H2)|..].
  - intros o c tg I. apply isort_In, in_map_iff in I as [[o' i] [E I]]. unfold pos_image in E. cbn [fst snd] in E. injection E as -> <- <-. destruct (HP o i I) as [A [B [_ C]]].
    split; [exact A|]. split; [exact (proj1 B)|]. intros n k Hn. apply isort_In in Hn. destruct (C n k Hn) as [D [F _]]. auto.
  - intros o m u I. apply isort_In, in_map_iff in I as [[[o' n] s] [E I]]. unfold call_image in E. cbn [fst snd] in E. injection E as -> -> <-. destruct (HC o m s I) as [A [B C]]. split; [exact A|]. split; [exact B|]. exact (IH _ _ I C).
Qed.
Lemma Forall2_map_eq {A B C} (f : A -> C) (g : B -> C) l l' : Forall2 (fun a b => f a = g b) l l' <-> map f l = map g l'.
Proof.
  split.
  - induction 1 as [|a b l l' E F IH]; cbn [map]; congruence.
  - revert l'. induction l as [|a l IH]; intros [|b l'] E; try discriminate; [constructor|]. cbn [map] in E. injection E as E1 E2. constructor; auto.
Qed.
Lemma Forall2_impl_In {A B} (P Q : A -> B -> Prop) l l' : (forall a b, In a l -> In b l' -> P a b -> Q a b) -> Forall2 P l l' -> Forall2 Q l l'.
Proof.
  intros H F. induction F as [|a b l l' E F IH]; constructor; [apply H; [left; reflexivity|left; reflexivity|exact E]|]. apply IH. intros x y Hx Hy. apply H; right; assumption.
Qed.

(** Two symbols have the same tree exactly if they have the same samples. *)
Lemma tree_same s : forall s', symbol_ok s -> symbol_ok s' -> (tree_of s = tree_of s' <-> same s s').
Proof.
  induction s as [h t ts pos calls IH] using symbol_ind'. intros [h' t' ts' pos' calls'] OK OK'.
  inversion OK as [h0 t0 ts0 p0 c0 _ _ _ N1 N2 HP HC]; subst. inversion OK' as [h0 t0 ts0 p0 c0 _ _ _ N1' N2' HP' HC']; subst. rewrite !tree_of_eq.
  assert (ND : NoDup (map fst (map call_image calls))) by (rewrite map_map; exact N2).
  assert (PE : forall a b : Z * pinfo, pos_image a = pos_image b <-> fst a = fst b /\ same_info (snd a) (snd b)).
  { intros a b. unfold pos_image, same_info. rewrite <- targets_eq. split; [intros E; injection E as E1 E2 E3; auto|intros [E1 [E2 E3]]; congruence]. }
  split.
  - intros E. injection E as -> E1 E2. apply pos_isort in E1; [|exact N1]. apply call_isort in E2; [|exact ND].
    apply Permutation_sym in E1, E2. apply Permutation_map_inv in E1 as [q1 [M1 P1]]. apply Permutation_map_inv in E2 as [q2 [M2 P2]].
    apply (Same h h' ts ts' t' pos pos' calls calls' q2).
    + exists q1. split; [exact P1|]. symmetry in M1. apply Forall2_map_eq in M1. revert M1. apply Forall2_impl_In. intros a b _ _ X. apply PE, X.
    + exact P2.
    + symmetry in M2. apply Forall2_map_eq in M2. revert M2. apply Forall2_impl_In. intros [[o n] a] [[o' n'] b] Ha Hb X. unfold call_image in X. cbn [fst snd] in *. injection X as -> -> X. split; [reflexivity|].
      apply (Permutation_in _ (Permutation_sym P2)) in Ha. apply (IH (o', n') a Ha); [apply (HC o' n' a Ha)|apply (HC' o' n' b Hb)|exact X].
  - intros H. inversion H as [h0 h1 ts0 ts1 t0 p0 p1 c0 c1 q [q1 [P1 F1]] P2 F2]; subst. f_equal.
    + apply pos_isort; [exact N1|]. eapply perm_trans; [apply Permutation_map, P1|]. replace (map pos_image pos') with (map pos_image q1); [apply Permutation_refl|].
      apply Forall2_map_eq. revert F1. apply Forall2_impl_In. intros a b _ _ X. apply PE, X.
    + apply call_isort; [exact ND|]. eapply perm_trans; [apply Permutation_map, P2|]. replace (map call_image calls') with (map call_image q); [apply Permutation_refl|].
      apply Forall2_map_eq. revert F2. apply Forall2_impl_In. intros [[o n] a] [[o' n'] b] Ha Hb [X Y]. unfold call_image. cbn [fst snd] in *. injection X as -> ->. f_equal.
      apply (Permutation_in _ (Permutation_sym P2)) in Ha. apply (IH (o', n') a Ha); [apply (HC o' n' a Ha)|apply (HC' o' n' b Hb)|exact Y].
Qed.

(** * The functions *)
Lemma map_insert_In k n m : forall k' x, (exists ns, In (k', ns) (map_insert k n m) /\ In x ns) <-> (k' = k /\ x = n) \/ (exists ns, In (k', ns) m /\ In x ns).
Proof.
  induction m as [|[k0 ns0] m IH]; intros k' x; cbn [map_insert].
  - split; [intros [ns [[E|[]] Hx]]; injection E as <- <-; destruct Hx as [<-|[]]; auto|]. intros [[-> ->]|[ns [[] _]]]. exists [n]. split; left; reflexivity.
  - destruct (Z.ltb_spec k k0) as [L|L]; [|destruct (Z.ltb_spec k0 k) as [L'|L']].
    + split; [intros [ns [[E|H] Hx]]; [injection E as <- <-; destruct Hx as [<-|[]]; auto|right; eauto]|]. intros [[-> ->]|[ns [H Hx]]]; [exists [n]; split; left; reflexivity|exists ns; split; [right; exact H|exact Hx]].
    + specialize (IH k' x). split.
      * intros [ns [[E|H] Hx]]; [injection E as <- <-; right; exists ns0; split; [left; reflexivity|exact Hx]|]. destruct (proj1 IH) as [A|[ns' [A B]]]; [eauto|auto|]. right. exists ns'. split; [right; exact A|exact B].
      * intros [A|[ns [[E|H] Hx]]]; [destruct (proj2 IH (or_introl A)) as [ns [B C]]; exists ns; split; [right; exact B|exact C]|injection E as <- <-; exists ns0; split; [left; reflexivity|exact Hx]|].
        destruct (proj2 IH) as [ns' [B C]]; [right; eauto|]. exists ns'. split; [right; exact B|exact C].
    + assert (k0 = k) by lia. subst k0. split.
      * intros [ns [[E|H] Hx]]; [injection E as <- <-; apply In_sinsert in Hx as [->|Hx]; [auto|right; exists ns0; split; [left; reflexivity|exact Hx]]|right; exists ns; split; [right; exact H|exact Hx]].
      * intros [[-> ->]|[ns [[E|H] Hx]]]; [exists (sinsert n ns0); split; [left; reflexivity|apply In_sinsert; auto]|injection E as <- <-; exists (sinsert n ns0); split; [left; reflexivity|apply In_sinsert; auto]|exists ns; split; [right; exact H|exact Hx]].
Qed.
Definition tidy (m : list (Z * list name)) : Prop := StronglySorted (fun a b => fst a < fst b) m /\ forall k ns, In (k, ns) m -> StronglySorted nlt ns.
Lemma map_insert_tidy k n m : tidy m -> tidy (map_insert k n m) /\ forall k', In k' (map fst (map_insert k n m)) -> k' = k \/ In k' (map fst m).
Proof.
  intros [S N]. induction S as [|[k0 ns0] m S IH F]; cbn [map_insert].
  - split; [split; [repeat constructor|intros k' ns [E|[]]; injection E as <- <-; repeat constructor]|]. intros k' [<-|[]]. auto.
  - rewrite Forall_forall in F. cbn [fst] in F. destruct (Z.ltb_spec k k0) as [L|L]; [|destruct (Z.ltb_spec k0 k) as [L'|L']].
    + split; [split|].
      * constructor; [constructor; [exact S|rewrite Forall_forall; exact F]|]. constructor; [exact L|]. rewrite Forall_forall. intros e He. specialize (F e He). cbn [fst]. lia.
      * intros k' ns [E|H]; [injection E as <- <-; repeat constructor|exact (N k' ns H)].
      * intros k'. cbn [map fst In]. intuition.
    + destruct (IH (fun k' ns H => N k' ns (or_intror H))) as [[A B] C]. split; [split|].
      * constructor; [exact A|]. rewrite Forall_forall. intros e He. cbn [fst]. destruct (C (fst e) (in_map fst _ _ He)) as [->|H]; [exact L'|]. apply in_map_iff in H as [e' [<- He']]. exact (F e' He').
      * intros k' ns [E|H]; [injection E as <- <-; apply (N k0 ns0); left; reflexivity|exact (B k' ns H)].
      * intros k'. cbn [map fst In]. intros [<-|H]; [auto|]. destruct (C k' H); auto.
    + split; [split|].
      * constructor; [exact S|]. rewrite Forall_forall. exact F.
      * intros k' ns [E|H]; [injection E as <- <-; apply sinsert_sorted, (N k0 ns0); left; reflexivity|apply (N k' ns); right; exact H].
      * intros k'. cbn [map fst In]. tauto.
Qed.
Lemma names_map_ok l : tidy (count_names_map l) /\
  forall k x, (exists ns, In (k, ns) (count_names_map l) /\ In x ns) <-> exists e, In e (counted l) /\ k = complement (s_total (e_sym e)) /\ x = e_name e.
Proof.
  unfold count_names_map, counted. assert (G : forall m, tidy m -> let f := fun m e => if 0 <? s_total (e_sym e) then map_insert (complement (s_total (e_sym e))) (e_name e) m else m in
    tidy (fold_left f l m) /\ forall k x, (exists ns, In (k, ns) (fold_left f l m) /\ In x ns) <->
      (exists ns, In (k, ns) m /\ In x ns) \/ exists e, In e (filter (fun e => 0 <? s_total (e_sym e)) l) /\ k = complement (s_total (e_sym e)) /\ x = e_name e).
  { induction l as [|e l IH]; intros m Tm f; cbn [fold_left filter].
    - split; [exact Tm|]. intros k x. split; [auto|]. intros [H|[e [[] _]]]. exact H.
    - destruct (0 <? s_total (e_sym e)) eqn:P; fold f; unfold f at 2 4; rewrite P; [|apply (IH m Tm)].
      destruct (IH _ (proj1 (map_insert_tidy (complement (s_total (e_sym e))) (e_name e) m Tm))) as [A B]. split; [exact A|]. intros k x. etransitivity; [exact (B k x)|]. rewrite map_insert_In. split.
      + intros [[[-> ->]|H]|[e' [H H']]]; [right; exists e; split; [left; reflexivity|auto]|auto|right; exists e'; split; [right; exact H|exact H']].
      + intros [H|[e' [[<-|H] [-> ->]]]]; [auto|auto|right; eauto]. }
  assert (T0 : tidy []) by (split; [constructor|intros k ns []]). destruct (G [] T0) as [A B]. split; [exact A|]. intros k x. etransitivity; [exact (B k x)|]. split; [intros [[ns [[] _]]|H]; exact H|auto].
Qed.

Lemma entry_unique l a b : profile_ok l -> In a l -> In b l -> e_name a = e_name b -> a = b.
Proof.
  intros [S _]. induction S as [|x l S IH F]; [intros []|]. rewrite Forall_forall in F. intros [->|Ha] [->|Hb] E; auto.
  - specialize (F b Hb). cbn in F. rewrite E, name_ltb_irrefl in F. discriminate.
  - specialize (F a Ha). cbn in F. rewrite <- E, name_ltb_irrefl in F. discriminate.
Qed.
Lemma find_entry_In l e : profile_ok l -> In e l -> find_entry (e_name e) l = Some e.
Proof.
  intros OK H. unfold find_entry. destruct (find (fun e' => name_eqb (e_name e') (e_name e)) l) as [e'|] eqn:E.
  - apply find_some in E as [H' E]. destruct (name_eqb_spec (e_name e') (e_name e)) as [Q|]; [|discriminate]. f_equal. apply (entry_unique l); auto.
  - pose proof (find_none _ _ E e H) as X. cbn in X. destruct (name_eqb_spec (e_name e) (e_name e)); congruence.
Qed.

(** The dump consists of the functions with a count, each once: the larger counts
    first, equal ones by name. *)
Theorem C78_functions l : profile_ok l ->
  exists es, Dump l = concat (map Dump_symbol es) /\ Permutation es (counted l) /\ StronglySorted shown_before es.
Proof.
  intros OK. destruct (names_map_ok l) as [[S N] M]. set (m := count_names_map l) in *.
  set (group := fun g : Z * list name => flat_map (fun n => match find_entry n l with Some e => [e] | None => [] end) (snd g)).
  exists (flat_map group m).
  assert (GI : forall g e, In g m -> In e (group g) -> In e (counted l) /\ fst g = complement (s_total (e_sym e)) /\ In (e_name e) (snd g)).
  { intros [k ns] e Hg He. unfold group in He. cbn [fst snd] in *. apply in_flat_map in He as [n [Hn He]]. destruct (proj1 (M k n) (ex_intro _ ns (conj Hg Hn))) as [e' [C [-> ->]]].
    rewrite (find_entry_In l e' OK) in He by (apply filter_In in C; apply C). destruct He as [<-|[]]. auto. }
  assert (GS : StronglySorted shown_before (flat_map group m)).
  { apply (flat_sorted _ _ _ (fun a b => fst a < fst b) S).
    - intros [k ns] Hg. pose proof (N k ns Hg) as SN. assert (X : forall n, In n ns -> exists e, In e (counted l) /\ k = complement (s_total (e_sym e)) /\ n = e_name e) by (intros n Hn; apply M; eauto).
      clear -SN X OK. unfold group. cbn [snd]. induction SN as [|n ns SN IH F]; cbn [flat_map]; [constructor|].
      assert (IH' := IH (fun n' H => X n' (or_intror H))). destruct (X n (or_introl eq_refl)) as [e [C [-> ->]]].
      rewrite (find_entry_In l e OK) by (apply filter_In in C; apply C). cbn [app]. constructor; [exact IH'|]. rewrite Forall_forall in *. intros y Hy. apply in_flat_map in Hy as [n' [Hn' Hy]].
      destruct (X n' (or_intror Hn')) as [e' [C' [Q ->]]]. rewrite (find_entry_In l e' OK) in Hy by (apply filter_In in C'; apply C'). destruct Hy as [<-|[]]. right. split; [unfold complement in Q; lia|exact (F _ Hn')].
    - intros g g' x y Hg Hg' Q Hx Hy. destruct (GI g x Hg Hx) as [_ [A _]], (GI g' y Hg' Hy) as [_ [B _]]. rewrite A, B in Q. unfold complement in Q. left. lia. }
  split; [|split; [|exact GS]].
  - unfold Dump. fold m. clear -m. induction m as [|[k ns] m IH]; [reflexivity|]. cbn [map concat flat_map snd]. rewrite map_app, concat_app, map_app, concat_app. f_equal; [|exact IH].
    unfold group. cbn [snd]. clear. induction ns as [|n ns IH]; [reflexivity|]. cbn [map concat flat_map]. rewrite map_app, concat_app, IH. f_equal. destruct (find_entry n l); cbn [map concat]; [rewrite app_nil_r; reflexivity|reflexivity].
  - apply NoDup_Permutation.
    + clear -GS. induction GS as [|x k GS IH F]; constructor; [|exact IH]. intros X. rewrite Forall_forall in F. destruct (F x X) as [H|[_ H]]; [lia|rewrite name_ltb_irrefl in H; discriminate].
    + apply NoDup_filter. destruct OK as [SO _]. clear -SO. induction SO as [|x k SO IH F]; constructor; [|exact IH]. intros X. rewrite Forall_forall in F. pose proof (F x X) as H. cbn in H. rewrite name_ltb_irrefl in H. discriminate.
    + intros e. split.
      * intros H. apply in_flat_map in H as [g [Hg He]]. apply (GI g e Hg He).
      * intros H. destruct (proj2 (M (complement (s_total (e_sym e))) (e_name e))) as [ns [Hg Hn]]; [eauto|]. apply in_flat_map. exists (complement (s_total (e_sym e)), ns). split; [exact Hg|].
        unfold group. cbn [snd]. apply in_flat_map. exists (e_name e). split; [exact Hn|]. rewrite (find_entry_In l e OK) by (apply filter_In in H; apply H). left. reflexivity.
Qed.
Print Assumptions C78_functions.

(** * The text *)
Lemma dump_shallow es : (forall e, In e es -> plain (e_name e)) -> shallow (0 + 2) (concat (map Dump_symbol es)).
Proof.
  intros H. exists 0%nat, (concat (map Dump_symbol es)). split; [lia|]. split; [reflexivity|]. destruct es as [|e es]; [left; reflexivity|]. right. cbn [map concat]. unfold Dump_symbol at 1.
  pose proof (H e (or_introl eq_refl)) as P. destruct (e_name e) as [|b n]; cbn [app]; eexists _, _; (split; [reflexivity|]); [intros X; vm_compute in X; discriminate|]. apply P. left. reflexivity.
Qed.
Definition entry_ok (e : entry) : Prop := plain (e_name e) /\ plain (e_file e) /\ symbol_ok (e_sym e).
Lemma read_entries es : forall es', (forall e, In e es -> entry_ok e) -> (forall e, In e es' -> entry_ok e) ->
  concat (map Dump_symbol es) = concat (map Dump_symbol es') -> Forall2 same_entry es es'.
Proof.
  induction es as [|e es IH]; intros [|e' es'] H H' E; cbn [map concat] in E.
  - constructor.
  - exfalso. unfold Dump_symbol in E. rewrite <- !app_assoc in E. destruct (e_name e'); discriminate.
  - exfalso. unfold Dump_symbol in E. rewrite <- !app_assoc in E. destruct (e_name e); discriminate.
  - destruct (H e (or_introl eq_refl)) as [P [F K]], (H' e' (or_introl eq_refl)) as [P' [F' K']].
    unfold Dump_symbol at 1 3 in E. rewrite <- !app_assoc in E. change (txt ":") with [58] in E. change (txt " total:") with (32 :: txt "total:") in E.
    change (txt " head:") with (32 :: txt "head:") in E. change (txt " timestamp: ") with (32 :: txt "timestamp: ") in E. cbn [app] in E.
    apply read_plain in E as [EN [_ E]]; auto. apply read_plain in E as [EF [_ E]]; auto. apply app_inv_head in E.
    assert (C : count_ok (s_total (e_sym e)) /\ count_ok (s_head (e_sym e)) /\ count_ok (s_ts (e_sym e))) by (inversion K; auto).
    assert (C' : count_ok (s_total (e_sym e')) /\ count_ok (s_head (e_sym e')) /\ count_ok (s_ts (e_sym e'))) by (inversion K'; auto).
    destruct C as [C1 [C2 C3]], C' as [C1' [C2' C3']]. unfold count_ok in *.
    apply read_dec in E as [ET [_ E]]; try lia; try reflexivity. apply app_inv_head in E.
    apply read_dec in E as [EH [_ E]]; try lia; try reflexivity. apply app_inv_head in E.
    apply read_dec in E as [ES [_ E]]; try lia; try reflexivity. rewrite !body_tree, EF in E.
    destruct (read_body (tree_of (e_sym e)) (tree_of (e_sym e')) (e_file e') 0 _ _ (tree_good _ K) (tree_good _ K') F'
      (dump_shallow es (fun x Hx => proj1 (H x (or_intror Hx)))) (dump_shallow es' (fun x Hx => proj1 (H' x (or_intror Hx)))) E) as [ETR E2].
    { destruct (e_sym e), (e_sym e'). exact ET. }
    constructor; [|apply IH; [intros x Hx; apply H; right; exact Hx|intros x Hx; apply H'; right; exact Hx|exact E2]].
    split; [exact EN|]. split; [exact EF|]. split; [exact EH|]. split; [exact ES|]. apply tree_same; assumption.
Qed.
Lemma same_text a b : entry_ok a -> entry_ok b -> same_entry a b -> Dump_symbol a = Dump_symbol b /\ s_total (e_sym a) = s_total (e_sym b).
Proof.
  intros [_ [_ A]] [_ [_ B]] [EN [EF [EH [ES S]]]]. assert (ET : s_total (e_sym a) = s_total (e_sym b)) by (inversion S; reflexivity). split; [|exact ET].
  apply tree_same in S; try assumption. unfold Dump_symbol. rewrite !body_tree, EN, EF, EH, ES, ET, S. reflexivity.
Qed.

(** Two profiles print the same text exactly if the functions with a count, their
    files, counts, call targets and inlined functions are the same. *)
Theorem C78_exact l l' : profile_ok l -> profile_ok l' -> (Dump l = Dump l' <-> Forall2 same_entry (counted l) (counted l')).
Proof.
  intros OK OK'. destruct (C78_functions l OK) as [es [E [P S]]], (C78_functions l' OK') as [es' [E' [P' S']]]. rewrite E, E'.
  assert (CO : forall e, In e (counted l) -> entry_ok e) by (intros e He; apply filter_In in He; apply OK, He).
  assert (CO' : forall e, In e (counted l') -> entry_ok e) by (intros e He; apply filter_In in He; apply OK', He).
  assert (EO : forall e, In e es -> entry_ok e) by (intros e He; apply CO, (Permutation_in _ P), He).
  assert (EO' : forall e, In e es' -> entry_ok e) by (intros e He; apply CO', (Permutation_in _ P'), He).
  assert (FS : forall k, StronglySorted (fun a b => name_ltb (e_name a) (e_name b) = true) k -> StronglySorted (fun a b => name_ltb (e_name a) (e_name b) = true) (counted k)).
  { clear. unfold counted. induction 1 as [|x k S IH F]; cbn [filter]; [constructor|]. destruct (0 <? _); [|exact IH]. constructor; [exact IH|]. rewrite Forall_forall in *. intros y Hy. apply filter_In in Hy. apply F, Hy. }
  split.
  - intros T. apply read_entries in T; [|exact EO|exact EO']. destruct (Permutation_Forall2 P T) as [c [Pc Fc]].
    assert (Q : c = counted l'); [|rewrite Q in Fc; exact Fc].
    apply (sorted_perm_eq (fun a b => name_ltb (e_name a) (e_name b) = true)).
    + intros x y _ _ A B. pose proof (name_ltb_trans _ _ _ A B) as X. rewrite name_ltb_irrefl in X. discriminate.
    + pose proof (FS l (proj1 OK)) as SS. clear -SS Fc. induction Fc as [|a b k k' [EN _] Fc IH]; [constructor|]. inversion SS as [|? ? SS' F]; subst. constructor; [apply IH, SS'|].
      rewrite Forall_forall in *. intros y Hy. rewrite <- EN. clear -Fc F Hy. induction Fc as [|a' b' k k' [EN _] Fc IH]; [destruct Hy|]. destruct Hy as [<-|Hy]; [rewrite <- EN; apply F; left; reflexivity|apply IH; [intros x Hx; apply F; right; exact Hx|exact Hy]].
    + apply FS, OK'.
    + eapply perm_trans; [apply Permutation_sym, Pc|exact P'].
  - intros F. destruct (Permutation_Forall2 (Permutation_sym P) F) as [k [Pk Fk]].
    assert (KO : forall e, In e k -> entry_ok e) by (intros e He; apply CO', (Permutation_in _ (Permutation_sym Pk)), He).
    assert (Q : k = es').
    { apply (sorted_perm_eq shown_before).
      - intros x y _ _ [A|[A A']] [B|[B B']]; try lia. pose proof (name_ltb_trans _ _ _ A' B') as X. rewrite name_ltb_irrefl in X. discriminate.
      - clear -S Fk EO KO. induction Fk as [|a b q q' X Fk IH]; [constructor|]. inversion S as [|? ? S1 G]; subst. constructor; [apply IH; [exact S1|intros e He; apply EO; right; exact He|intros e He; apply KO; right; exact He]|].
        destruct (same_text a b (EO a (or_introl eq_refl)) (KO b (or_introl eq_refl)) X) as [_ TE]. pose proof (proj1 X) as NE. rewrite Forall_forall in *. intros y Hy.
        assert (Z : exists x, In x q /\ same_entry x y) by (clear -Fk Hy; induction Fk as [|a' b' q q' X Fk IH]; [destruct Hy|]; destruct Hy as [<-|Hy]; [exists a'; split; [left; reflexivity|exact X]|destruct (IH Hy) as [x [A B]]; exists x; split; [right; exact A|exact B]]).
        destruct Z as [x [Hx SX]]. destruct (same_text x y (EO x (or_intror Hx)) (KO y (or_intror Hy)) SX) as [_ TX]. specialize (G x Hx). unfold shown_before in *. rewrite <- TE, <- TX, <- NE, <- (proj1 SX). exact G.
      - exact S'.
      - eapply perm_trans; [apply Permutation_sym, Pk|apply Permutation_sym, P']. }
    subst k. f_equal. clear -Fk EO EO'. induction Fk as [|a b q q' X Fk IH]; [reflexivity|]. cbn [map]. f_equal; [apply same_text; [apply EO; left; reflexivity|apply EO'; left; reflexivity|exact X]|]. apply IH; [intros e He; apply EO; right; exact He|intros e He; apply EO'; right; exact He].
Qed.
Print Assumptions C78_exact.

(** * Examples *)
Definition x_in : symbol := Sym 0 7 0 [(3 * 2 ^ 32, PInfo 7 2 [])] [].
Definition x_foo : symbol := Sym 5 19 0 [(2 * 2 ^ 32 + 1, PInfo 4 1 [(txt "b", 1); (txt "c", 3)]); (2 ^ 32, PInfo 8 1 [])] [((2 * 2 ^ 32, txt "bar"), x_in)].
Definition x_profile : list entry := [Entry (txt "a") (txt "a.c") (Sym 1 2 0 [] []); Entry (txt "foo") (txt "f.c") x_foo; Entry (txt "none") [] (Sym 0 0 0 [] [])].
Definition lines (l : list string) : text := concat (map (fun s => txt s ++ [10]) l).
Ltac all_in H := cbn in H; repeat (destruct H as [H|H]; [|try destruct H]); try destruct H.
Ltac is_plain := let b := fresh in let H := fresh in intros b H; cbn in H; repeat (destruct H as [<-|H]; [lia|]); destruct H.
Example C78_nonvacuous :
  profile_ok x_profile /\
  Dump x_profile = lines ["foo:f.c total:19 head:5 timestamp: 0"; "  1: 8"; "  2.1: 4  c:f.c:3  b:f.c:1"; "  2: bar: total:7"; "    3: 7"; "a:a.c total:2 head:1 timestamp: 0"].
Proof.
  assert (OI : symbol_ok x_in).
  { constructor; [unfold count_ok; lia|unfold count_ok; lia|unfold count_ok; lia|repeat constructor; intros []|constructor|..].
    - intros o i [H|[]]. injection H as <- <-. split; [unfold offset_ok; lia|]. split; [unfold count_ok; cbn; lia|]. split; [constructor|intros n k []].
    - intros o n s []. }
  split.
  - split; [repeat (constructor; [|repeat constructor]); constructor|]. intros e [<-|[<-|[<-|[]]]]; (split; [is_plain|]); (split; [is_plain|]).
    + constructor; [unfold count_ok; lia|unfold count_ok; lia|unfold count_ok; lia|constructor|constructor|intros o i []|intros o n s []].
    + constructor; [unfold count_ok; lia|unfold count_ok; lia|unfold count_ok; lia|constructor; [intros [H|[]]; discriminate|repeat constructor; intros []]|repeat constructor; intros []|..].
      * intros o i [H|[H|[]]]; injection H as <- <-; (split; [unfold offset_ok; lia|]); (split; [unfold count_ok; cbn; lia|]).
        -- split; [constructor; [intros [H|[]]; discriminate|repeat constructor; intros []]|]. intros n k [H|[H|[]]]; injection H as <- <-; (split; [is_plain|unfold count_ok; lia]).
        -- split; [constructor|intros n k []].
      * intros o n s [H|[]]. injection H as <- <- <-. split; [unfold offset_ok; lia|]. split; [is_plain|exact OI].
    + constructor; [unfold count_ok; lia|unfold count_ok; lia|unfold count_ok; lia|constructor|constructor|intros o i []|intros o n s []].
  - vm_compute. reflexivity.
Qed.

(** Colons in a name or a file make the text ambiguous. *)
Theorem C78_colon_refuted : exists a b, e_name a <> e_name b /\ symbol_ok (e_sym a) /\ symbol_ok (e_sym b) /\ Dump [a] = Dump [b] /\ counted [a] = [a] /\ counted [b] = [b].
Proof.
  assert (K : symbol_ok (Sym 1 2 0 [] [])) by (constructor; [unfold count_ok; lia|unfold count_ok; lia|unfold count_ok; lia|constructor|constructor|intros o i []|intros o n s []]).
  exists (Entry (txt "-[C m") (txt "]:f.m") (Sym 1 2 0 [] [])), (Entry (txt "-[C m:]") (txt "f.m") (Sym 1 2 0 [] [])).
  split; [discriminate|]. split; [exact K|]. split; [exact K|]. split; [vm_compute; reflexivity|]. split; reflexivity.
Qed.
Print Assumptions C78_colon_refuted.
