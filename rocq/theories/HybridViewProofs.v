(** A profile as a partial map from a function and a chain of inlined calls to
    the data of the node. *)
From Verif Require Import Base AssocFold SymbolModel SymbolSpec SymbolProofs AttribProofs AfdoModel AfdoReadProofs
  FlattenModel FlattenSpec FlattenPureProofs FlattenMapProofs HybridModel HybridSpec.

Notation owndata := (Z * Z * list (Z * pinfo))%type.
Definition own (s : symbol) : owndata := (s_head s, s_total s, s_pos s).
Definition own0 : owndata := (0, 0, []).
Definition own_add (a b : owndata) : owndata :=
  let '(h, t, p) := a in let '(h', t', p') := b in (add64 h h', add64 t t', pos_add p p').
Definition own_ok (a : owndata) : Prop := let '(h, t, p) := a in is_u64 h /\ is_u64 t /\ pos_ok p.
Definition view (m : smap) (F : name) (p : path) : option owndata := option_map own (node_of m F p).

Lemma own_sym_ok s : sym_ok s -> own_ok (own s).
Proof. intros O. split; [exact (sym_ok_head s O)|]. split; [exact (sym_ok_total s O)|exact (sym_ok_pos s O)]. Qed.

Lemma at_name m F i : aget name_eqb F (sm_names m) = Some i -> forall p, node_of m F p = node_get m i p.
Proof. intros E p. unfold node_of, sm_find, node_get. rewrite E. reflexivity. Qed.
Lemma name_inj m F G i : smap_ok m -> aget name_eqb F (sm_names m) = Some i -> aget name_eqb G (sm_names m) = Some i -> F = G.
Proof. intros O A B. destruct (ok_index m F i O A) as [_ <-]. destruct (ok_index m G i O B) as [_ <-]. reflexivity. Qed.

Definition here (F : name) (p : path) (G : name) (q : path) : bool := name_eqb G F && path_eqb q p.
Lemma here_spec F p G q : reflect (G = F /\ q = p) (here F p G q).
Proof. unfold here. destruct (name_eqb_spec G F), (path_eqb_spec q p); constructor; tauto. Qed.

Lemma prefix_dec (p q : path) : {r | q = p ++ r} + {forall r, q <> p ++ r}.
Proof.
  revert q. induction p as [|k p IH]; intros q; [left; exists q; reflexivity|].
  destruct q as [|k' q]; [right; discriminate|]. destruct (callsite_eqb_spec k k') as [E|N].
  - subst k'. destruct (IH q) as [[r E]|N]; [left; exists r; subst; reflexivity|right; intros r E; apply (N r); cbn [app] in E; congruence].
  - right. intros r E. cbn [app] in E. congruence.
Qed.

Lemma node_upd_names_aget i p f m F : aget name_eqb F (sm_names (node_upd i p f m)) = aget name_eqb F (sm_names m).
Proof. rewrite names_upd. reflexivity. Qed.

(** The general effect of an update at a node. *)
Lemma node_of_upd m F i p f x G q : smap_ok m -> aget name_eqb F (sm_names m) = Some i -> node_get m i p = Some x ->
  view (node_upd i p f m) G q =
    if name_eqb G F then match prefix_dec p q with
                         | inleft (exist _ r _) => option_map own (node_at (f x) r)
                         | inright _ => view m G q
                         end
    else view m G q.
Proof.
  intros O E N. unfold view. destruct (aget name_eqb G (sm_names m)) as [j|] eqn:EG.
  2:{ assert (X : node_of m G q = None) by (unfold node_of, sm_find; rewrite EG; reflexivity).
      assert (Y : node_of (node_upd i p f m) G q = None) by (unfold node_of, sm_find; rewrite node_upd_names_aget, EG; reflexivity).
      rewrite X, Y. destruct (name_eqb_spec G F) as [->|]; [congruence|reflexivity]. }
  rewrite (at_name m G j EG). rewrite (at_name (node_upd i p f m) G j) by (rewrite node_upd_names_aget; exact EG).
  destruct (name_eqb_spec G F) as [->|NE].
  - assert (j = i) by congruence. subst j. destruct (prefix_dec p q) as [[r ->]|NP]; [rewrite (get_upd_under i p f m x r N); reflexivity|].
    pose proof (get_upd_frame i p f m i q (fun _ => NP)) as H.
    destruct (node_get (node_upd i p f m) i q), (node_get m i q); try contradiction; [|reflexivity].
    destruct H as (A & B & C & _). cbn [option_map]. unfold own. rewrite A, B, C. reflexivity.
  - rewrite get_upd_other; [reflexivity|]. intros ->. apply NE. exact (name_inj m G F i O EG E).
Qed.

Lemma view_upd m F i p f x G q : smap_ok m -> aget name_eqb F (sm_names m) = Some i -> node_get m i p = Some x -> s_calls (f x) = s_calls x ->
  view (node_upd i p f m) G q = if here F p G q then Some (own (f x)) else view m G q.
Proof.
  intros O E N C. rewrite (node_of_upd m F i p f x G q O E N). unfold here. destruct (name_eqb_spec G F) as [->|NE]; cbn [andb]; [|reflexivity].
  destruct (prefix_dec p q) as [[r ->]|NP].
  - destruct r as [|k r].
    + rewrite app_nil_r. destruct (path_eqb_spec p p); [reflexivity|congruence].
    + destruct (path_eqb_spec (p ++ k :: r) p) as [X|_]; [exfalso; apply (f_equal (@length callsite)) in X; rewrite app_length in X; cbn [length] in X; lia|].
      unfold view. rewrite (at_name m F i E), (get_app m i p (k :: r) x N). cbn [node_at]. rewrite C. reflexivity.
  - destruct (path_eqb_spec q p) as [->|_]; [exfalso; apply (NP []); rewrite app_nil_r; reflexivity|reflexivity].
Qed.

Lemma view_ins m F i p k x G q : smap_ok m -> aget name_eqb F (sm_names m) = Some i -> node_get m i p = Some x ->
  view (node_upd i p (ins_child k) m) G q =
    if here F (p ++ [k]) G q then Some (match view m G q with Some o => o | None => own0 end) else view m G q.
Proof.
  intros O E N. rewrite (node_of_upd m F i p _ x G q O E N). unfold here. destruct (name_eqb_spec G F) as [->|NE]; cbn [andb]; [|reflexivity].
  destruct (prefix_dec p q) as [[r ->]|NP].
  - assert (V : view m F (p ++ r) = option_map own (node_at x r)) by (unfold view; rewrite (at_name m F i E), (get_app m i p r x N); reflexivity).
    rewrite V. destruct x as [h t ts pos cs]. destruct r as [|k' r].
    + destruct (path_eqb_spec (p ++ []) (p ++ [k])) as [X|_]; [apply app_inv_head in X; discriminate|reflexivity].
    + cbn [ins_child node_at s_calls]. rewrite (aget_aset callsite_eqb callsite_eqb_spec). unfold cget. destruct (callsite_eqb_spec k' k) as [->|NK].
      * destruct r as [|k2 r].
        -- destruct (path_eqb_spec (p ++ [k]) (p ++ [k])) as [_|X]; [|congruence]. destruct (aget callsite_eqb k cs); reflexivity.
        -- destruct (path_eqb_spec (p ++ k :: k2 :: r) (p ++ [k])) as [X|_]; [apply app_inv_head in X; discriminate|]. destruct (aget callsite_eqb k cs); reflexivity.
      * destruct (path_eqb_spec (p ++ k' :: r) (p ++ [k])) as [X|_]; [apply app_inv_head in X; congruence|reflexivity].
  - destruct (path_eqb_spec q (p ++ [k])) as [->|_]; [exfalso; exact (NP [k] eq_refl)|reflexivity].
Qed.

Lemma add_ok n m : smap_ok m -> smap_ok (AddSymbol [] n m).
Proof.
  intros O. unfold AddSymbol. destruct (aget name_eqb n (sm_names m)) as [j|] eqn:E; [exact O|]. cbn [fold_left].
  rewrite (aset_absent _ _ _ _ E). destruct O as [[O1 O2] O3]. split; [split|]; cbn [sm_names sm_heap].
  + rewrite map_app. cbn [map fst]. apply NoDup_snoc; auto. apply (aget_None_iff name_eqb name_eqb_spec). exact E.
  + rewrite map_app, app_length, O2, seq_app. reflexivity.
  + apply Forall_app. split; [exact O3|]. constructor; [apply sym0_ok|constructor].
Qed.
Lemma add_aget n m F : aget name_eqb F (sm_names (AddSymbol [] n m)) =
  match aget name_eqb F (sm_names m) with Some i => Some i | None => if name_eqb F n then Some (length (sm_heap m)) else None end.
Proof.
  unfold AddSymbol. destruct (aget name_eqb n (sm_names m)) as [j|] eqn:E.
  - destruct (aget name_eqb F (sm_names m)) eqn:EF; [reflexivity|]. destruct (name_eqb_spec F n); [congruence|reflexivity].
  - cbn [fold_left sm_names]. rewrite (aget_aset name_eqb name_eqb_spec). destruct (name_eqb_spec F n) as [->|]; [rewrite E; reflexivity|]. destruct (aget name_eqb F (sm_names m)); reflexivity.
Qed.
Lemma add_heap n m i s : nth_error (sm_heap m) i = Some s -> nth_error (sm_heap (AddSymbol [] n m)) i = Some s.
Proof.
  intros E. unfold AddSymbol. destruct (aget name_eqb n (sm_names m)); [exact E|]. cbn [sm_heap]. rewrite nth_error_app1; [exact E|]. apply nth_error_Some. congruence.
Qed.
Lemma add_node n m i p x : node_get m i p = Some x -> node_get (AddSymbol [] n m) i p = Some x.
Proof. unfold node_get. destruct (nth_error (sm_heap m) i) as [s|] eqn:E; [|discriminate]. rewrite (add_heap n m i s E). auto. Qed.
Lemma find_some m F i : smap_ok m -> aget name_eqb F (sm_names m) = Some i -> exists s, nth_error (sm_heap m) i = Some s.
Proof. intros O E. pose proof (ok_range m F i O E) as L. destruct (nth_error (sm_heap m) i) as [s|] eqn:X; [exists s; reflexivity|]. apply nth_error_None in X. lia. Qed.

Lemma view_add n m G q : smap_ok m ->
  view (AddSymbol [] n m) G q = if here n [] G q then Some (match view m G q with Some o => o | None => own0 end) else view m G q.
Proof.
  intros O. destruct (aget name_eqb G (sm_names m)) as [i|] eqn:E.
  - destruct (find_some m G i O E) as [s Es].
    assert (X : node_of (AddSymbol [] n m) G q = node_of m G q).
    { rewrite (at_name m G i E). rewrite (at_name (AddSymbol [] n m) G i) by (rewrite add_aget, E; reflexivity). unfold node_get. rewrite (add_heap n m i s Es), Es. reflexivity. }
    unfold view. rewrite X. destruct (here_spec n [] G q) as [[-> ->]|]; [|reflexivity]. rewrite (at_name m n i E). unfold node_get. rewrite Es. reflexivity.
  - assert (X : node_of m G q = None) by (unfold node_of, sm_find; rewrite E; reflexivity). unfold view. rewrite X. cbn [option_map]. destruct (here_spec n [] G q) as [[-> ->]|NH].
    + unfold node_of, sm_find. rewrite add_aget, E. destruct (name_eqb_spec n n); [|congruence]. unfold AddSymbol. rewrite E. cbn [sm_heap]. rewrite nth_error_app2, Nat.sub_diag by lia. reflexivity.
    + unfold node_of, sm_find. rewrite add_aget, E. destruct (name_eqb_spec G n) as [->|]; [|reflexivity]. unfold AddSymbol. rewrite E. cbn [sm_heap]. rewrite nth_error_app2, Nat.sub_diag by lia. cbn [nth_error].
      destruct q as [|k q]; [tauto|reflexivity].
Qed.
Lemma add_self n m : smap_ok m -> exists j, aget name_eqb n (sm_names (AddSymbol [] n m)) = Some j /\ exists s, node_get (AddSymbol [] n m) j [] = Some s.
Proof.
  intros O. destruct (aget name_eqb n (sm_names (AddSymbol [] n m))) as [j|] eqn:E.
  - exists j. split; [reflexivity|]. destruct (find_some _ n j (add_ok n m O) E) as [s Es]. exists s. unfold node_get. rewrite Es. reflexivity.
  - rewrite add_aget in E. destruct (aget name_eqb n (sm_names m)); [discriminate|]. destruct (name_eqb_spec n n); [discriminate|congruence].
Qed.

(** *** Names and nodes that exist keep existing. *)
Definition grows (m m' : smap) : Prop :=
  smap_ok m' /\ (forall F i, aget name_eqb F (sm_names m) = Some i -> aget name_eqb F (sm_names m') = Some i) /\
  (forall F p, view m F p <> None -> view m' F p <> None).
Lemma grows_refl m : smap_ok m -> grows m m.
Proof. intros O. split; [exact O|]. split; auto. Qed.
Lemma grows_trans a b c : grows a b -> grows b c -> grows a c.
Proof. intros (_ & A2 & A3) (B1 & B2 & B3). split; [exact B1|]. split; auto. Qed.
Lemma view_get m F i p : aget name_eqb F (sm_names m) = Some i -> view m F p <> None -> exists x, node_get m i p = Some x /\ view m F p = Some (own x).
Proof. unfold view. intros E. rewrite (at_name m F i E). destruct (node_get m i p) as [x|]; [exists x; auto|]. intros V. exfalso. apply V. reflexivity. Qed.
Lemma grows_upd m F i p f x : smap_ok m -> aget name_eqb F (sm_names m) = Some i -> node_get m i p = Some x -> s_calls (f x) = s_calls x -> sym_ok (f x) ->
  grows m (node_upd i p f m).
Proof.
  intros O E N C K. split; [exact (ok_upd m i p f x O N K)|]. split; [intros G j H; rewrite node_upd_names_aget; exact H|].
  intros G q V. rewrite (view_upd m F i p f x G q O E N C). destruct (here F p G q); [discriminate|exact V].
Qed.
Lemma grows_add n m : smap_ok m -> grows m (AddSymbol [] n m).
Proof.
  intros O. split; [exact (add_ok n m O)|]. split; [intros G j H; rewrite add_aget, H; reflexivity|].
  intros G q V. rewrite (view_add n m G q O). destruct (here n [] G q); [discriminate|exact V].
Qed.
Lemma ins_child_ok k s : sym_ok s -> sym_ok (ins_child k s).
Proof.
  intros [h t ts pos cs Hh Ht Hp Hn Hc]. cbn [ins_child]. constructor; auto.
  - apply NoDup_akeys_aset; [apply callsite_eqb_spec|exact Hn].
  - intros k0 c0 I0. assert (N' := NoDup_akeys_aset callsite_eqb callsite_eqb_spec k (cget k cs) cs Hn).
    apply (aget_NoDup_In callsite_eqb callsite_eqb_spec _ _ _ N') in I0. rewrite (aget_aset callsite_eqb callsite_eqb_spec) in I0. unfold cget in I0.
    destruct (callsite_eqb_spec k0 k) as [->|]; [|apply (Hc k0); exact (aget_In callsite_eqb callsite_eqb_spec _ _ _ I0)].
    destruct (aget callsite_eqb k cs) as [c|] eqn:E.
    + assert (c = c0) as <- by congruence. apply (Hc k). exact (aget_In callsite_eqb callsite_eqb_spec _ _ _ E).
    + assert (sym0 = c0) as <- by congruence. apply sym0_ok.
Qed.
Lemma grows_ins m F i p k x : smap_ok m -> aget name_eqb F (sm_names m) = Some i -> node_get m i p = Some x -> grows m (node_upd i p (ins_child k) m).
Proof.
  intros O E N. split; [exact (ok_upd m i p _ x O N (ins_child_ok k x (ok_get m i p x O N)))|]. split; [intros G j H; rewrite node_upd_names_aget; exact H|].
  intros G q V. rewrite (view_ins m F i p k x G q O E N). destruct (here F (p ++ [k]) G q); [discriminate|exact V].
Qed.
