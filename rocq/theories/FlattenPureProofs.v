(** Flattening, proofs part 1: trees. *)
From Verif Require Import Base AssocFold SymbolModel SymbolSpec SymbolProofs AttribProofs AfdoModel
  FlattenModel FlattenSpec.

(** *** Arithmetic modulo 2^64 *)
Definition eqm (a b : Z) : Prop := exists z, a = b + z * w64.
Lemma eqm_refl a : eqm a a. Proof. exists 0; lia. Qed.
Lemma eqm_sym a b : eqm a b -> eqm b a. Proof. intros [z ->]. exists (- z). lia. Qed.
Lemma eqm_trans a b c : eqm a b -> eqm b c -> eqm a c.
Proof. intros [z ->] [y ->]. exists (z + y). lia. Qed.
Lemma eqm_add a b c d : eqm a b -> eqm c d -> eqm (a + c) (b + d).
Proof. intros [z ->] [y ->]. exists (z + y). lia. Qed.
Lemma eqm_u64 a : eqm (u64 a) a.
Proof. unfold u64. exists (- (a / w64)). pose proof (Z_div_mod_eq_full a w64). lia. Qed.
Lemma eqm_mod a b : eqm a b -> a mod 2 ^ 64 = b mod 2 ^ 64.
Proof. intros [z ->]. change (2 ^ 64) with w64. apply Z_mod_plus_full. Qed.

(** *** Induction on trees *)
Lemma symbol_ind' (Q : symbol -> Prop) :
  (forall h t ts pos cs, (forall key c, In (key, c) cs -> Q c) -> Q (Sym h t ts pos cs)) -> forall s, Q s.
Proof.
  intros H. fix IH 1. intros [h t ts pos cs]. apply H.
  induction cs as [|[k' c'] cs IHc]; intros key c I; [destruct I|].
  destruct I as [E|I]; [|exact (IHc key c I)]. assert (X : c' = c) by congruence. rewrite <- X. apply IH.
Qed.

(** *** No node from level k on *)
Definition low (k : nat) (s : symbol) : Prop := forall q, (k <= length q)%nat -> node_at s q = None.
Definition calls_at (s : symbol) (q : path) : list (callsite * symbol) :=
  match node_at s q with Some n => s_calls n | None => [] end.

Lemma node_at_app q : forall s r, node_at s (q ++ r) = match node_at s q with Some n => node_at n r | None => None end.
Proof. induction q as [|x q IH]; intros s r; cbn [app node_at]; [reflexivity|]. destruct (aget _ _ _); auto. Qed.

Lemma low_child k s key c : low (S k) s -> aget callsite_eqb key (s_calls s) = Some c -> low k c.
Proof. intros L E q Hq. specialize (L (key :: q)). cbn [node_at length] in L. rewrite E in L. apply L. lia. Qed.
Lemma low_1 s : low 1 s <-> s_calls s = [].
Proof.
  split.
  - intros L. destruct (s_calls s) as [|[key c] cs] eqn:E; [reflexivity|].
    specialize (L [key]). cbn [node_at length] in L. rewrite E in L. cbn [aget] in L.
    destruct (callsite_eqb_spec key key); [|congruence]. specialize (L (le_n 1)). discriminate.
  - intros E [|key q] Hq; cbn [length] in Hq; [lia|]. cbn [node_at]. rewrite E. reflexivity.
Qed.
Lemma low_calls_at k s : low (S k) s <-> forall q, length q = k -> calls_at s q = [].
Proof.
  split.
  - intros L q Hq. unfold calls_at. destruct (node_at s q) as [x|] eqn:E; [|reflexivity].
    apply low_1. intros r Hr. specialize (L (q ++ r)). rewrite node_at_app, E in L. apply L.
    rewrite app_length. lia.
  - intros H q Hq. assert (E : q = firstn k q ++ skipn k q) by (symmetry; apply firstn_skipn).
    rewrite E, node_at_app. pose proof (H (firstn k q)) as C.
    rewrite firstn_length_le in C by lia. specialize (C eq_refl). unfold calls_at in C.
    destruct (node_at s (firstn k q)) as [x|]; [|reflexivity].
    assert (Ls : length (skipn k q) = (length q - k)%nat) by apply skipn_length.
    destruct (skipn k q) as [|key r]; [cbn [length] in Ls; lia|]. cbn [node_at]. rewrite C. reflexivity.
Qed.
Lemma low_within k s : low k s <-> within_level k s.
Proof.
  unfold low, within_level, has_node. split.
  - intros L q E. destruct (le_lt_dec k (length q)); [|assumption]. rewrite L in E by assumption. discriminate.
  - intros W q Hq. destruct (node_at s q) eqn:E; [|reflexivity]. specialize (W q). rewrite E in W. specialize (W eq_refl). lia.
Qed.

(** *** upd_at *)
Lemma upd_at_app p : forall q f s, upd_at (p ++ q) f s = upd_at p (upd_at q f) s.
Proof.
  induction p as [|x p IH]; intros q f s; cbn [app upd_at]; [reflexivity|].
  destruct s as [h t ts pos cs]. destruct (aget _ _ _); [|reflexivity]. rewrite IH. reflexivity.
Qed.
Lemma aset_aset {K V} (eqb : K -> K -> bool) (sp : forall a b, reflect (a = b) (eqb a b)) k (v w : V) m :
  aset eqb k v (aset eqb k w m) = aset eqb k v m.
Proof.
  induction m as [|[k' v'] m IH]; cbn [aset].
  - destruct (sp k k); congruence.
  - destruct (sp k k') as [->|Ne]; cbn [aset]; [destruct (sp k' k'); congruence|].
    destruct (sp k k'); [congruence|]. rewrite IH. reflexivity.
Qed.
Lemma aset_same {K V} (eqb : K -> K -> bool) (sp : forall a b, reflect (a = b) (eqb a b)) k (v : V) m :
  aget eqb k m = Some v -> aset eqb k v m = m.
Proof.
  induction m as [|[k' v'] m IH]; cbn [aset aget]; [discriminate|].
  destruct (sp k k') as [->|Ne]; intros E; [congruence|]. rewrite IH by auto. reflexivity.
Qed.
Lemma upd_upd p : forall f g s, upd_at p f (upd_at p g s) = upd_at p (fun x => f (g x)) s.
Proof.
  induction p as [|x p IH]; intros f g s; cbn [upd_at]; [reflexivity|].
  destruct s as [h t ts pos cs]. destruct (aget callsite_eqb x cs) as [c|] eqn:E; cbn [upd_at].
  - rewrite aget_aset_same by apply callsite_eqb_spec. rewrite aset_aset by apply callsite_eqb_spec. rewrite IH. reflexivity.
  - rewrite E. reflexivity.
Qed.
Lemma upd_ext p : forall f g s x, node_at s p = Some x -> f x = g x -> upd_at p f s = upd_at p g s.
Proof.
  induction p as [|y p IH]; intros f g s x E H; cbn [upd_at node_at] in *; [congruence|].
  destruct s as [h t ts pos cs]. cbn [s_calls] in E. destruct (aget callsite_eqb y cs) as [c|] eqn:Ec; [|reflexivity].
  rewrite (IH f g c x) by auto. reflexivity.
Qed.
Lemma node_upd_same p : forall f s x, node_at s p = Some x -> node_at (upd_at p f s) p = Some (f x).
Proof.
  induction p as [|y p IH]; intros f s x E; cbn [upd_at node_at] in *; [congruence|].
  destruct s as [h t ts pos cs]. cbn [s_calls] in E. destruct (aget callsite_eqb y cs) as [c|] eqn:Ec; [|discriminate].
  cbn [s_calls]. rewrite aget_aset_same by apply callsite_eqb_spec. apply IH. exact E.
Qed.
Lemma node_upd_under p f s x q : node_at s p = Some x -> node_at (upd_at p f s) (p ++ q) = node_at (f x) q.
Proof. intros E. rewrite node_at_app, (node_upd_same p f s x E). reflexivity. Qed.

(** a node update seen from outside: an update that keeps head, body, ... of
    the node's ancestors; what other paths see *)
Lemma node_upd_other p : forall f s q, (forall r, q <> p ++ r) ->
  match node_at (upd_at p f s) q, node_at s q with
  | Some a, Some b => s_pos a = s_pos b /\ s_head a = s_head b /\ s_total a = s_total b /\
                      akeys (s_calls a) = akeys (s_calls b) /\
                      (is_prefix q p = false -> a = b)
  | None, None => True
  | _, _ => False
  end.
Proof.
  induction p as [|y p IH]; intros f s q N.
  - specialize (N q). elim N. reflexivity.
  - cbn [upd_at]. destruct s as [h t ts pos cs]. destruct (aget callsite_eqb y cs) as [c|] eqn:Ec.
    + destruct q as [|z q]; cbn [node_at s_calls s_pos s_head s_total].
      * split; [reflexivity|]. split; [reflexivity|]. split; [reflexivity|]. split; [|cbn; discriminate].
        rewrite akeys_aset by apply callsite_eqb_spec.
        replace (existsb (callsite_eqb y) (akeys cs)) with true; [reflexivity|]. symmetry.
        apply (existsb_eqb_In callsite_eqb callsite_eqb_spec).
        apply aget_In in Ec; [|apply callsite_eqb_spec]. apply (in_map fst) in Ec. exact Ec.
      * rewrite aget_aset by apply callsite_eqb_spec. destruct (callsite_eqb_spec z y) as [->|Ne].
        -- rewrite Ec. specialize (IH f c q). cbn [is_prefix].
           destruct (callsite_eqb_spec y y) as [_|]; [|congruence]. cbn [andb].
           apply IH. intros r E. apply (N r). cbn [app]. congruence.
        -- destruct (match aget callsite_eqb z cs with Some c0 => node_at c0 q | None => None end); auto 10.
    + destruct (node_at (Sym h t ts pos cs) q); auto 10.
Qed.

(** *** tree_sum *)
Section Sum.
  Variables (obs : list (Z * pinfo) -> Z) (F : name).
  Hypothesis obs_nil : obs [] = 0.
  Hypothesis obs_add : forall d s, pos_ok d -> pos_ok s -> eqm (obs (pos_add d s)) (obs d + obs s).

  Notation tsum := (tree_sum obs F).
  Definition csum (cs : list (callsite * symbol)) : Z :=
    fold_right (fun kc a => tsum (snd (fst kc)) (snd kc) + a) 0 cs.
  Lemma tsum_eq n s : tsum n s = (if name_eqb n F then obs (s_pos s) else 0) + csum (s_calls s).
  Proof. destruct s; reflexivity. Qed.
  Lemma csum_app a b : csum (a ++ b) = csum a + csum b.
  Proof. induction a as [|x a IH]; cbn [csum app fold_right] in *; [reflexivity|]. unfold csum in *. lia. Qed.

  Lemma csum_aset key c cs : csum (aset callsite_eqb key c cs) =
    csum cs - match aget callsite_eqb key cs with Some o => tsum (snd key) o | None => 0 end + tsum (snd key) c.
  Proof.
    induction cs as [|[k' c'] cs IH]; cbn [aset aget].
    - unfold csum; cbn [fold_right fst snd]. lia.
    - destruct (callsite_eqb_spec key k') as [<-|Ne].
      + unfold csum; cbn [fold_right fst snd]. lia.
      + unfold csum in *; cbn [fold_right fst snd]. rewrite IH. lia.
  Qed.
  Lemma tsum_sym0 n : tsum n sym0 = 0.
  Proof. cbn. rewrite obs_nil. destruct (name_eqb n F); reflexivity. Qed.

  Lemma tsum_merge s : forall n d, sym_ok d -> sym_ok s -> eqm (tsum n (merge d s)) (tsum n d + tsum n s).
  Proof.
    induction s as [h t ts pos cs IH] using symbol_ind'. intros n d Hd Hs. rewrite merge_eq.
    rewrite !tsum_eq. cbn [s_pos s_calls].
    assert (G : forall l acc, (forall x, In x l -> In x cs) -> (forall k c, In (k, c) acc -> sym_ok c) ->
       eqm (csum (calls_merge acc l)) (csum acc + csum l)).
    { inversion Hs as [? ? ? ? ? _ _ _ Hn Hc]; subst. clear - IH Hc obs_nil.
      induction l as [|[key c] l IHl]; intros acc Inc Ha.
      - cbn [csum fold_right calls_merge fold_left]. rewrite Z.add_0_r. apply eqm_refl.
      - change (calls_merge acc ((key, c) :: l)) with (calls_merge (aset callsite_eqb key (merge (cget key acc) c) acc) l).
        assert (Oc : sym_ok c) by (apply (Hc key); apply Inc; left; reflexivity).
        assert (Og : sym_ok (cget key acc)).
        { unfold cget. destruct (aget callsite_eqb key acc) eqn:E; [|apply sym0_ok].
          apply aget_In in E; [|apply callsite_eqb_spec]. eauto. }
        eapply eqm_trans.
        { apply IHl; [intros x I; apply Inc; right; exact I|].
          intros k0 c0 I. apply (In_aset callsite_eqb callsite_eqb_spec) in I.
          destruct I as [I| ->]; [eauto|]. apply merge_ok; auto. }
        rewrite csum_aset.
        pose proof (IH key c (Inc _ (or_introl eq_refl)) (snd key) (cget key acc) Og Oc) as X.
        assert (Y : tsum (snd key) (cget key acc) = match aget callsite_eqb key acc with Some o => tsum (snd key) o | None => 0 end).
        { unfold cget. destruct (aget callsite_eqb key acc); [reflexivity|]. apply tsum_sym0. }
        rewrite Y in X. change (csum ((key, c) :: l)) with (tsum (snd key) c + csum l).
        destruct X as [z Ez]. exists z. rewrite Ez.
        ring. }
    inversion Hs as [? ? ? ? ? Hh Ht Hp Hn Hc]; subst.
    destruct Hd as [h0 t0 ts0 pos0 cs0 Hh0 Ht0 Hp0 Hn0 Hc0]. cbn [s_pos s_calls].
    specialize (G cs cs0 (fun x I => I) Hc0). destruct G as [z Ez]. rewrite Ez.
    destruct (name_eqb n F).
    - destruct (obs_add pos0 pos Hp0 Hp) as [y Ey]. rewrite Ey. exists (y + z). lia.
    - exists z. lia.
  Qed.

  (** the name of the node at a path *)
  Definition name_of (n : name) (p : path) : name := match rev p with [] => n | key :: _ => snd key end.
  Lemma name_of_cons n key p : name_of n (key :: p) = name_of (snd key) p.
  Proof. unfold name_of. cbn [rev]. destruct (rev p); reflexivity. Qed.
  Lemma name_of_snoc n key p : name_of n (p ++ [key]) = snd key.
  Proof. unfold name_of. rewrite rev_app_distr. reflexivity. Qed.

  Lemma tsum_upd p : forall n f s x, node_at s p = Some x ->
    tsum n (upd_at p f s) = tsum n s + (tsum (name_of n p) (f x) - tsum (name_of n p) x).
  Proof.
    induction p as [|key p IH]; intros n f s x E; cbn [upd_at node_at] in *.
    - assert (s = x) as -> by congruence. change (name_of n []) with n. lia.
    - destruct s as [h t ts pos cs]. cbn [s_calls] in E. destruct (aget callsite_eqb key cs) as [c|] eqn:Ec; [|discriminate].
      rewrite (tsum_eq n (Sym h t ts pos (aset _ _ _ _))), (tsum_eq n (Sym h t ts pos cs)).
      cbn [s_pos s_calls]. rewrite csum_aset, Ec, (IH (snd key) f c x E), name_of_cons. ring.
  Qed.
End Sum.

Lemma In_aset_kv {K V} (eqb : K -> K -> bool) (sp : forall a b, reflect (a = b) (eqb a b)) k (v : V) m k0 v0 :
  In (k0, v0) (aset eqb k v m) -> (k0 = k /\ v0 = v) \/ In (k0, v0) m.
Proof.
  induction m as [|[k1 v1] m IH]; cbn [aset].
  - intros [E|[]]. left. split; congruence.
  - destruct (sp k k1) as [->|Ne]; intros [E|I].
    + left. split; congruence.
    + right. right. exact I.
    + right. left. exact E.
    + destruct (IH I); auto. right. right. assumption.
Qed.
(** *** Every callsite of a tree satisfies R *)
Fixpoint all_keys (R : name -> callsite -> Prop) (n : name) (s : symbol) : Prop :=
  match s with
  | Sym _ _ _ _ cs =>
      fold_right (fun kc a => (R n (fst kc) /\ all_keys R (snd (fst kc)) (snd kc)) /\ a) True cs
  end.
Lemma all_keys_iff R n s : all_keys R n s <->
  forall key c, In (key, c) (s_calls s) -> R n key /\ all_keys R (snd key) c.
Proof.
  destruct s as [h t ts pos cs]. cbn [all_keys s_calls]. induction cs as [|[k0 c0] cs IH]; cbn [fold_right fst snd].
  - split; [intros _ key c []|auto].
  - rewrite IH. split.
    + intros [A B] key c [E|I]; [|auto]. assert (k0 = key /\ c0 = c) as [-> ->] by (split; congruence). exact A.
    + intros H. split; [apply H; left; reflexivity|]. intros key c I. apply H. right; exact I.
Qed.
Lemma all_keys_sym0 R n : all_keys R n sym0. Proof. exact I. Qed.

Lemma all_keys_merge R s : forall n d, all_keys R n d -> all_keys R n s -> all_keys R n (merge d s).
Proof.
  induction s as [h t ts pos cs IH] using symbol_ind'. intros n d Hd Hs. rewrite merge_eq.
  apply all_keys_iff. cbn [s_calls]. rewrite all_keys_iff in Hs. cbn [s_calls] in Hs. rewrite all_keys_iff in Hd.
  revert Hd. generalize (s_calls d). intros acc.
  assert (G : forall l acc, (forall x, In x l -> In x cs) ->
     (forall key c, In (key, c) acc -> R n key /\ all_keys R (snd key) c) ->
     forall key c, In (key, c) (calls_merge acc l) -> R n key /\ all_keys R (snd key) c).
  { clear acc. induction l as [|[key c] l IHl]; intros acc Inc Ha; [exact Ha|].
    change (calls_merge acc ((key, c) :: l)) with (calls_merge (aset callsite_eqb key (merge (cget key acc) c) acc) l).
    apply IHl; [intros x I; apply Inc; right; exact I|].
    destruct (Hs key c (Inc _ (or_introl eq_refl))) as [R1 A1].
    assert (A2 : all_keys R (snd key) (merge (cget key acc) c)).
    { apply (IH key); [apply Inc; left; reflexivity| |exact A1]. unfold cget.
      destruct (aget callsite_eqb key acc) eqn:E; [|apply all_keys_sym0].
      apply aget_In in E; [|apply callsite_eqb_spec]. apply Ha in E. tauto. }
    intros k0 c0 I. apply In_aset_kv in I; [|apply callsite_eqb_spec].
    destruct I as [[-> ->]|I]; auto. }
  intros Ha. apply G; auto.
Qed.
Lemma all_keys_node R p : forall n s x, all_keys R n s -> node_at s p = Some x -> all_keys R (name_of n p) x.
Proof.
  induction p as [|key p IH]; intros n s x A E; cbn [node_at] in E; [assert (s = x) as <- by congruence; exact A|].
  destruct (aget callsite_eqb key (s_calls s)) as [c|] eqn:Ec; [|discriminate].
  rewrite name_of_cons. apply (IH _ c); [|exact E]. rewrite all_keys_iff in A.
  apply aget_In in Ec; [|apply callsite_eqb_spec]. apply A in Ec. tauto.
Qed.
Lemma all_keys_upd R p : forall n f s x, all_keys R n s -> node_at s p = Some x ->
  all_keys R (name_of n p) (f x) -> all_keys R n (upd_at p f s).
Proof.
  induction p as [|key p IH]; intros n f s x A E B; cbn [node_at upd_at] in *; [assert (s = x) as -> by congruence; exact B|].
  destruct s as [h t ts pos cs]. cbn [s_calls] in E. destruct (aget callsite_eqb key cs) as [c|] eqn:Ec; [|discriminate].
  rewrite name_of_cons in B. apply all_keys_iff. rewrite all_keys_iff in A. cbn [s_calls] in *.
  pose proof Ec as Ic. apply aget_In in Ic; [|apply callsite_eqb_spec].
  destruct (A key c Ic) as [R1 A1]. specialize (IH (snd key) f c x A1 E B).
  intros k0 c0 I. apply In_aset_kv in I; [|apply callsite_eqb_spec].
  destruct I as [[-> ->]|I]; auto.
Qed.

(** *** sym_ok of a node update *)
Lemma sym_ok_upd p : forall f s x, sym_ok s -> node_at s p = Some x -> sym_ok (f x) -> sym_ok (upd_at p f s).
Proof.
  induction p as [|key p IH]; intros f s x A E B; cbn [node_at upd_at] in *; [assert (s = x) as -> by congruence; exact B|].
  destruct A as [h t ts pos cs Hh Ht Hp Hn Hc]. cbn [s_calls] in E.
  destruct (aget callsite_eqb key cs) as [c|] eqn:Ec; [|discriminate].
  constructor; auto.
  - apply NoDup_akeys_aset; auto using callsite_eqb_spec.
  - intros k0 c0 I. apply (In_aset callsite_eqb callsite_eqb_spec) in I. destruct I as [I| ->]; [eauto|].
    apply (IH f c x); auto. apply aget_In in Ec; [|apply callsite_eqb_spec]. eauto.
Qed.

(** *** A low tree does not touch deep nodes *)
Lemma merge_upd_comm k : forall p f d c x, sym_ok d -> sym_ok c -> low k c -> (k <= length p)%nat ->
  node_at d p = Some x -> merge (upd_at p f d) c = upd_at p f (merge d c).
Proof.
  induction k as [|k IH]; intros p f d c x Hd Hc L Lp E.
  { specialize (L [] (le_n 0)). discriminate. }
  destruct p as [|key p]; [cbn [length] in Lp; lia|]. cbn [length] in Lp. cbn [node_at upd_at] in *.
  destruct d as [h t ts pos cs]. cbn [s_calls] in E. destruct (aget callsite_eqb key cs) as [e|] eqn:Ee; [|discriminate].
  rewrite !merge_eq. cbn [upd_at s_head s_total s_ts s_pos s_calls].
  inversion Hc as [hc tc tsc posc csc _ _ _ Nc Oc]; subst. cbn [s_head s_total s_pos s_calls].
  assert (Od : forall k0 c0, In (k0, c0) cs -> sym_ok c0) by (inversion Hd; assumption).
  assert (Lc : forall k0 c0, In (k0, c0) csc -> low k c0).
  { intros k0 c0 I. apply (low_child k (Sym hc tc tsc posc csc) k0); auto. cbn [s_calls].
    apply (aget_NoDup_In callsite_eqb callsite_eqb_spec); auto. }
  assert (G : forall l acc e x, (forall y, In y l -> In y csc) -> (forall k0 c0, In (k0, c0) acc -> sym_ok c0) ->
     aget callsite_eqb key acc = Some e -> node_at e p = Some x ->
     exists e', aget callsite_eqb key (calls_merge acc l) = Some e' /\
       calls_merge (aset callsite_eqb key (upd_at p f e) acc) l = aset callsite_eqb key (upd_at p f e') (calls_merge acc l)).
  { clear - IH Lc Oc Lp. induction l as [|[k0 c0] l IHl]; intros acc e x Inc Ha Ee Ex; [exists e; split; [exact Ee|reflexivity]|].
    change (calls_merge acc ((k0, c0) :: l)) with (calls_merge (aset callsite_eqb k0 (merge (cget k0 acc) c0) acc) l).
    change (calls_merge (aset callsite_eqb key (upd_at p f e) acc) ((k0, c0) :: l)) with
      (calls_merge (aset callsite_eqb k0 (merge (cget k0 (aset callsite_eqb key (upd_at p f e) acc)) c0)
                      (aset callsite_eqb key (upd_at p f e) acc)) l).
    assert (Ic : In (k0, c0) csc) by (apply Inc; left; reflexivity).
    assert (Ok0 : sym_ok (cget k0 acc)).
    { unfold cget. destruct (aget callsite_eqb k0 acc) eqn:E; [|apply sym0_ok].
      apply aget_In in E; [|apply callsite_eqb_spec]. eauto. }
    assert (Ha' : forall k2 c2, In (k2, c2) (aset callsite_eqb k0 (merge (cget k0 acc) c0) acc) -> sym_ok c2).
    { intros k2 c2 I. apply (In_aset callsite_eqb callsite_eqb_spec) in I. destruct I as [I| ->]; [eauto|].
      apply merge_ok; eauto. }
    destruct (callsite_eqb_spec k0 key) as [->|Ne].
    - unfold cget. rewrite aget_aset_same by apply callsite_eqb_spec. rewrite aset_aset by apply callsite_eqb_spec.
      rewrite Ee. unfold cget in Ok0, Ha'. rewrite Ee in Ok0, Ha'.
      assert (M : merge (upd_at p f e) c0 = upd_at p f (merge e c0)).
      { apply (IH p f e c0 x); eauto. lia. }
      rewrite M.
      assert (Ex' : exists x', node_at (merge e c0) p = Some x').
      { rewrite node_at_merge by eauto. rewrite Ex. destruct (node_at c0 p); eauto. }
      destruct Ex' as [x' Ex'].
      destruct (IHl (aset callsite_eqb key (merge e c0) acc) (merge e c0) x') as (e' & A & B); auto.
      { intros y I. apply Inc. right; exact I. }
      { apply aget_aset_same. apply callsite_eqb_spec. }
      exists e'. split; [exact A|]. rewrite <- B. rewrite aset_aset by apply callsite_eqb_spec. reflexivity.
    - assert (Eg : cget k0 (aset callsite_eqb key (upd_at p f e) acc) = cget k0 acc).
      { unfold cget. rewrite aget_aset_other by (auto using callsite_eqb_spec). reflexivity. }
      rewrite Eg.
      assert (Cm : forall (v w : symbol), aset callsite_eqb k0 v (aset callsite_eqb key w acc) = aset callsite_eqb key w (aset callsite_eqb k0 v acc)).
      { clear - Ee Ne. intros v w. induction acc as [|[k1 c1] acc IHa]; cbn [aget] in Ee; [discriminate|]. cbn [aset].
        destruct (callsite_eqb_spec key k1) as [->|N1]; cbn [aset].
        - destruct (callsite_eqb_spec k0 k1); [congruence|]. cbn [aset].
          destruct (callsite_eqb_spec k1 k1); [reflexivity|congruence].
        - destruct (callsite_eqb_spec k0 k1) as [->|N2]; cbn [aset].
          + destruct (callsite_eqb_spec key k1); [congruence|reflexivity].
          + destruct (callsite_eqb_spec key k1); [congruence|]. rewrite IHa by auto. reflexivity. }
      rewrite Cm. apply (IHl _ e x); auto.
      { intros y I. apply Inc. right; exact I. }
      rewrite aget_aset_other by (auto using callsite_eqb_spec). exact Ee. }
  destruct (G csc cs e x (fun y I => I) Od Ee E) as (e' & A & B).
  cbn [s_calls]. rewrite A, B. reflexivity.
Qed.
