(** Proofs about throttleInlineInstancesAtSameLocation. *)
From Verif Require Import Base AssocFold ISort SymbolModel SymbolSpec SymbolProofs AttribProofs TrimModel TrimProofs.
Ltac Zify.zify_post_hook ::= Z.div_mod_to_equations.

Lemma filter_const_true {A} {l : list A} : filter (fun _ => negb false) l = l.
Proof. induction l as [|x l IH]; [reflexivity|]. cbn [filter negb]. f_equal. exact IH. Qed.

Section Walk.
  Context {A : Type}.
  Local Notation ent := (callsite * (Z * A))%type.
  Definition loc (e : ent) : Z := fst (fst e).
  Definition hot (e : ent) : Z := fst (snd e).

  Lemma site_leb_eq (a b : ent) :
    site_leb a b = if loc a =? loc b then hot b <=? hot a else loc a <? loc b.
  Proof. destruct a as [[la na] [ta xa]], b as [[lb nb] [tb xb]]. reflexivity. Qed.
  Lemma site_leb_total (a b : ent) : site_leb a b = true \/ site_leb b a = true.
  Proof. rewrite !site_leb_eq. destruct (Z.eqb_spec (loc a) (loc b)), (Z.eqb_spec (loc b) (loc a)); lia. Qed.
  Lemma site_leb_trans (a b c : ent) :
    site_leb a b = true -> site_leb b c = true -> site_leb a c = true.
  Proof.
    rewrite !site_leb_eq.
    destruct (Z.eqb_spec (loc a) (loc b)), (Z.eqb_spec (loc b) (loc c)), (Z.eqb_spec (loc a) (loc c)); lia.
  Qed.

  Fixpoint walk_kept (k num : Z) (l : list ent) : list ent :=
    match l with
    | [] => []
    | e :: l' =>
        let num' := match l' with
                    | e' :: _ => if loc e' =? loc e then num + 1 else 0
                    | [] => num + 1
                    end in
        (if k <=? num then [] else [e]) ++ walk_kept k num' l'
    end.

  Lemma walk_cons k num (e : ent) l :
    throttle_walk k num (e :: l) =
    (if k <=? num then [fst e] else []) ++
    throttle_walk k (match l with
                     | e' :: _ => if loc e' =? loc e then num + 1 else 0
                     | [] => num + 1
                     end) l.
  Proof. destruct e as [c x]. destruct l as [|[c' x'] l]; reflexivity. Qed.

  Lemma walk_sub k l : forall num c, In c (throttle_walk k num l) -> In c (map (@fst _ (Z * A)) l).
  Proof.
    induction l as [|e l IH]; intros num c; [intros []|]. rewrite walk_cons, in_app_iff. cbn [map In].
    intros [H|H]; [|right; eapply IH; eauto].
    destruct (k <=? num); [|destruct H]. destruct H as [H|[]]; auto.
  Qed.

  Lemma kept_filter k l : NoDup (map (@fst _ (Z * A)) l) -> forall num,
    filter (fun e => negb (existsb (callsite_eqb (fst e)) (throttle_walk k num l))) l = walk_kept k num l.
  Proof.
    induction l as [|e l IH]; intros Hn num; [reflexivity|].
    inversion Hn as [|? ? Hnot Hn']; subst.
    rewrite walk_cons. cbn [walk_kept].
    set (num' := match l with e' :: _ => if loc e' =? loc e then num + 1 else 0 | [] => num + 1 end).
    assert (Hrest : filter (fun x => negb (existsb (callsite_eqb (fst x))
        ((if k <=? num then [fst e] else []) ++ throttle_walk k num' l))) l = walk_kept k num' l).
    { rewrite <- IH by exact Hn'. apply filter_ext_in. intros x Hx.
      rewrite existsb_app. f_equal.
      assert (Hne : fst x <> fst e) by (intros E; apply Hnot; rewrite <- E; apply in_map; exact Hx).
      destruct (k <=? num); cbn [existsb orb]; [|reflexivity].
      destruct (callsite_eqb_spec (fst x) (fst e)); [congruence|reflexivity]. }
    cbn [filter]. rewrite Hrest. rewrite existsb_app.
    assert (Hno : existsb (callsite_eqb (fst e)) (throttle_walk k num' l) = false).
    { destruct (existsb (callsite_eqb (fst e)) (throttle_walk k num' l)) eqn:E; [|reflexivity].
      exfalso. apply Hnot. apply (existsb_eqb_In callsite_eqb callsite_eqb_spec) in E.
      eapply walk_sub; eauto. }
    rewrite Hno, orb_false_r. destruct (k <=? num); cbn [existsb orb negb app]; [|reflexivity].
    destruct (callsite_eqb_spec (fst e) (fst e)); [reflexivity|congruence].
  Qed.

  Definition at_loc (L : Z) (e : ent) : bool := loc e =? L.

  Lemma firstn_nil_any n : firstn n (@nil ent) = [].
  Proof. apply firstn_nil. Qed.

  Lemma kept_at k L l :
    StronglySorted (fun a b => loc a <= loc b) l -> forall num, 0 <= num -> 0 <= k ->
    filter (at_loc L) (walk_kept k num l) =
    firstn (Z.to_nat (k - match l with e :: _ => if at_loc L e then num else 0 | [] => 0 end))
           (filter (at_loc L) l).
  Proof.
    induction 1 as [|e l Hs IH Hf]; intros num Hnum Hk; [rewrite firstn_nil; reflexivity|].
    cbn [walk_kept]. set (num' := match l with e' :: _ => if loc e' =? loc e then num + 1 else 0 | [] => num + 1 end).
    rewrite filter_app.
    assert (Hnum' : 0 <= num') by (unfold num'; destruct l as [|e' l']; [lia|destruct (loc e' =? loc e); lia]).
    rewrite (IH num' Hnum' Hk). clear IH. cbn [filter].
    destruct (at_loc L e) eqn:Ee.
    - assert (El : loc e = L) by (unfold at_loc in Ee; lia).
      assert (Htail : firstn (Z.to_nat (k - match l with e0 :: _ => if at_loc L e0 then num' else 0 | [] => 0 end))
                        (filter (at_loc L) l) = firstn (Z.to_nat (k - (num + 1))) (filter (at_loc L) l)).
      { destruct l as [|e' l']; [cbn [filter]; rewrite !firstn_nil; reflexivity|].
        unfold num'. unfold at_loc at 1. destruct (Z.eqb_spec (loc e') L) as [E'|E'].
        - destruct (Z.eqb_spec (loc e') (loc e)); [reflexivity|congruence].
        - assert (Hnone : filter (at_loc L) (e' :: l') = []).
          { assert (Hall : forall z, In z (e' :: l') -> L < loc z).
            { inversion Hf as [|? ? Hle1 Hle2]; subst. inversion Hs as [|? ? Hs' Hf']; subst.
              intros z [<-|Hz]; [lia|]. rewrite Forall_forall in Hf'. specialize (Hf' z Hz). lia. }
            clear - Hall. induction (e' :: l') as [|z zs IHz]; [reflexivity|]. cbn [filter].
            unfold at_loc at 1. destruct (Z.eqb_spec (loc z) L) as [E|E].
            - specialize (Hall z (or_introl eq_refl)). lia.
            - apply IHz. intros y Hy. apply Hall; right; exact Hy. }
          rewrite Hnone, !firstn_nil. reflexivity. }
      rewrite Htail. destruct (Z.leb_spec k num).
      + cbn [filter app]. replace (Z.to_nat (k - num)) with 0%nat by lia.
        replace (Z.to_nat (k - (num + 1))) with 0%nat by lia. reflexivity.
      + cbn [filter]. rewrite Ee. replace (Z.to_nat (k - num)) with (S (Z.to_nat (k - (num + 1)))) by lia.
        reflexivity.
    - assert (Hhd : filter (at_loc L) (if k <=? num then [] else [e]) = []).
      { destruct (k <=? num); [reflexivity|]. cbn [filter]. rewrite Ee. reflexivity. }
      rewrite Hhd. cbn [app]. f_equal.
      destruct l as [|e' l']; [reflexivity|]. unfold num'.
      destruct (at_loc L e') eqn:Ee'; [|reflexivity].
      destruct (Z.eqb_spec (loc e') (loc e)); [unfold at_loc in *; lia|reflexivity].
  Qed.
End Walk.

Lemma StronglySorted_filter {A} (R : A -> A -> Prop) f l :
  StronglySorted R l -> StronglySorted R (filter f l).
Proof.
  induction 1 as [|x l Hs IH Hf]; cbn [filter]; [constructor|].
  destruct (f x); [|exact IH]. constructor; [exact IH|].
  rewrite Forall_forall in *. intros y Hy. apply filter_In in Hy. apply Hf; tauto.
Qed.
Lemma sorted_firstn_skipn {A} (R : A -> A -> Prop) l n x y :
  StronglySorted R l -> In x (firstn n l) -> In y (skipn n l) -> R x y.
Proof.
  intros Hs; revert n; induction Hs as [|z l Hs IH Hf]; intros n.
  - rewrite firstn_nil. intros [].
  - destruct n as [|n]; cbn [firstn skipn]; [intros []|]. intros [<-|Hx] Hy; [|eauto].
    rewrite Forall_forall in Hf. apply Hf. rewrite <- (firstn_skipn n l). apply in_or_app; auto.
Qed.

(** The set of entries that stay, before looking into them. *)
Definition erased_of {A} (k : Z) (sites : list (callsite * (Z * A))) : list callsite :=
  if k <? zlen sites then throttle_walk k 0 (isort site_leb sites) else [].
Definition kept_of {A} (k : Z) (sites : list (callsite * (Z * A))) :=
  filter (fun e => negb (existsb (callsite_eqb (fst e)) (erased_of k sites))) sites.

Section Kept.
  Context {A : Type} (k : Z) (sites : list (callsite * (Z * A))).
  Hypothesis Hk : 0 <= k.
  Hypothesis Hn : NoDup (map fst sites).
  Let sorted := isort (@site_leb A) sites.

  Lemma sorted_ok : StronglySorted (le_prop (@site_leb A)) sorted.
  Proof. apply isort_sorted; [apply site_leb_total|apply site_leb_trans]. Qed.
  Lemma sorted_loc : StronglySorted (fun a b => loc a <= loc b) sorted.
  Proof.
    eapply StronglySorted_impl_In; [apply sorted_ok|]. intros x y _ _. unfold le_prop.
    rewrite site_leb_eq. destruct (Z.eqb_spec (loc x) (loc y)); lia.
  Qed.
  Lemma sorted_NoDup : NoDup (map fst sorted).
  Proof. eapply Permutation_NoDup; [|exact Hn]. apply Permutation_map, isort_perm. Qed.

  (** Kept entries at L, in hotness order, are the k first of the entries at L. *)
  Lemma kept_perm L :
    Permutation (filter (at_loc L) (kept_of k sites))
                (firstn (Z.to_nat k) (filter (at_loc L) sorted)).
  Proof.
    unfold kept_of, erased_of. fold sorted. destruct (Z.ltb_spec k (zlen sites)) as [Hlt|Hge].
    - eapply perm_trans.
      + apply Permutation_filter. apply Permutation_filter. apply (isort_perm (@site_leb A)).
      + fold sorted. rewrite (kept_filter k sorted sorted_NoDup 0).
        rewrite (kept_at k L sorted sorted_loc 0) by lia.
        match goal with |- Permutation (firstn (Z.to_nat (k - ?x)) _) _ => assert (E : x = 0) end.
        { destruct sorted as [|e l]; [reflexivity|]. destruct (at_loc L e); reflexivity. }
        rewrite E, Z.sub_0_r. apply Permutation_refl.
    - rewrite firstn_all2.
      + cbn [existsb]. eapply perm_trans; [|apply Permutation_filter, isort_perm].
        assert (E : filter (fun _ : callsite * (Z * A) => negb false) sites = sites).
        { apply (filter_const_true (l := sites)). }
        rewrite E. apply Permutation_refl.
      + assert (length (filter (at_loc L) sorted) <= length sorted)%nat.
        { clear. induction sorted as [|z m IH]; cbn [filter length]; [lia|].
          destruct (at_loc L z); cbn [length]; lia. }
        unfold sorted in *. rewrite isort_length in *. unfold zlen in Hge. lia.
  Qed.

  Lemma kept_count L :
    zlen (filter (at_loc L) (kept_of k sites)) = Z.min k (zlen (filter (at_loc L) sites)).
  Proof.
    unfold zlen. rewrite (Permutation_length (kept_perm L)), firstn_length.
    rewrite <- (Permutation_filter_length (at_loc L) sites sorted) by apply isort_perm. lia.
  Qed.

  Lemma kept_hot a b :
    In a (kept_of k sites) -> In b sites -> ~ In b (kept_of k sites) -> loc a = loc b ->
    hot b <= hot a.
  Proof.
    intros Ha Hb Hnb Hl.
    assert (Ha' : In a (firstn (Z.to_nat k) (filter (at_loc (loc b)) sorted))).
    { eapply Permutation_in; [apply kept_perm|]. apply filter_In. split; [exact Ha|].
      unfold at_loc. lia. }
    assert (Hb' : In b (skipn (Z.to_nat k) (filter (at_loc (loc b)) sorted))).
    { assert (Hin : In b (filter (at_loc (loc b)) sorted)).
      { apply filter_In. split; [apply isort_In; exact Hb|unfold at_loc; lia]. }
      rewrite <- (firstn_skipn (Z.to_nat k)) in Hin. apply in_app_or in Hin.
      destruct Hin as [Hin|Hin]; [|exact Hin]. exfalso. apply Hnb.
      eapply Permutation_in in Hin; [|apply Permutation_sym, kept_perm].
      apply filter_In in Hin. tauto. }
    pose proof (sorted_firstn_skipn _ _ _ a b
                  (StronglySorted_filter _ (at_loc (loc b)) _ sorted_ok) Ha' Hb') as Hle.
    unfold le_prop in Hle. rewrite site_leb_eq in Hle.
    destruct (Z.eqb_spec (loc a) (loc b)); [lia|congruence].
  Qed.
End Kept.

(** *** From entries to symbols *)

Definition sites_of (k : Z) (calls : list (callsite * symbol)) :=
  map (fun '(c, n) => (c, (s_total n, throttle k n))) calls.

Lemma throttle_eq k h t ts pos calls :
  fst (throttle k (Sym h t ts pos calls)) =
  Sym h (t - snd (throttle k (Sym h t ts pos calls))) ts pos
      (map (fun e => (fst e, fst (snd (snd e)))) (kept_of k (sites_of k calls))).
Proof.
  cbn [throttle fst snd]. unfold kept_of, erased_of, sites_of.
  unfold zlen. rewrite map_length. reflexivity.
Qed.

Lemma sites_of_keys k calls : map fst (sites_of k calls) = akeys calls.
Proof.
  unfold sites_of, akeys. rewrite map_map. apply map_ext. intros [c n]; reflexivity.
Qed.
Lemma In_sites_of k calls e :
  In e (sites_of k calls) <-> exists c n, In (c, n) calls /\ e = (c, (s_total n, throttle k n)).
Proof.
  unfold sites_of. rewrite in_map_iff. split.
  - intros ([c n] & E & Hi). subst. eauto.
  - intros (c & n & Hi & ->). exists (c, n). auto.
Qed.

Definition stays (k : Z) (calls : list (callsite * symbol)) (c : callsite) : bool :=
  negb (existsb (callsite_eqb c) (erased_of k (sites_of k calls))).

Lemma aget_filter_map {W} (calls : list (callsite * symbol)) (f : symbol -> W) (g : callsite -> bool) c :
  aget callsite_eqb c
    (map (fun e => (fst e, f (snd e))) (filter (fun e => g (fst e)) calls)) =
  if g c then option_map f (aget callsite_eqb c calls) else None.
Proof.
  induction calls as [|[c' n] l IH]; cbn [filter map aget fst snd]; [destruct (g c); reflexivity|].
  destruct (callsite_eqb_spec c c') as [->|Hne].
  - destruct (g c') eqn:Eg; cbn [map aget fst snd].
    + destruct (callsite_eqb_spec c' c'); [reflexivity|congruence].
    + exact IH.
  - destruct (g c') eqn:Eg; cbn [map aget fst snd].
    + destruct (callsite_eqb_spec c c'); [congruence|]. exact IH.
    + exact IH.
Qed.

Lemma kept_map k calls :
  map (fun e => (fst e, fst (snd (snd e)))) (kept_of k (sites_of k calls)) =
  map (fun e => (fst e, fst (throttle k (snd e)))) (filter (fun e => stays k calls (fst e)) calls).
Proof.
  unfold kept_of, stays. set (er := erased_of k (sites_of k calls)). clearbody er.
  unfold sites_of. induction calls as [|[c n] l IH]; [reflexivity|].
  cbn [map filter fst snd]. destruct (negb (existsb (callsite_eqb c) er)); cbn [map fst snd]; congruence.
Qed.

Lemma child_throttle k s c :
  aget callsite_eqb c (s_calls (fst (throttle k s))) =
  if stays k (s_calls s) c
  then option_map (fun n => fst (throttle k n)) (aget callsite_eqb c (s_calls s)) else None.
Proof.
  destruct s as [h t ts pos calls]. rewrite throttle_eq. cbn [s_calls]. rewrite kept_map.
  apply (aget_filter_map calls (fun n => fst (throttle k n)) (stays k calls)).
Qed.

Definition site_keys (s : symbol) (l : Z) : list callsite :=
  filter (fun c => fst c =? l) (akeys (s_calls s)).

Lemma site_keys_throttle k s l :
  site_keys (fst (throttle k s)) l =
  map fst (filter (at_loc l) (kept_of k (sites_of k (s_calls s)))).
Proof.
  destruct s as [h t ts pos calls]. rewrite throttle_eq. unfold site_keys. cbn [s_calls].
  generalize (kept_of k (sites_of k calls)) as es. intros es. unfold akeys. rewrite map_map. cbn [fst].
  induction es as [|e es IH]; [reflexivity|]. cbn [map filter]. unfold at_loc at 1, loc.
  destruct (fst (fst e) =? l); cbn [map]; [f_equal|]; exact IH.
Qed.
Lemma site_keys_orig k s l :
  site_keys s l = map fst (filter (at_loc l) (sites_of k (s_calls s))).
Proof.
  unfold site_keys. rewrite <- (sites_of_keys k). generalize (sites_of k (s_calls s)) as es. intros es.
  induction es as [|e es IH]; [reflexivity|]. cbn [map filter]. unfold at_loc at 1, loc.
  destruct (fst (fst e) =? l); cbn [map]; [f_equal|]; exact IH.
Qed.

(** Local facts at the root. *)
Lemma throttle_count k s l : 0 <= k -> NoDup (akeys (s_calls s)) ->
  zlen (site_keys (fst (throttle k s)) l) = Z.min k (zlen (site_keys s l)).
Proof.
  intros Hk Hn. rewrite site_keys_throttle, (site_keys_orig k). unfold zlen.
  rewrite !map_length. apply kept_count; [exact Hk|]. rewrite sites_of_keys. exact Hn.
Qed.

Lemma total_at_1 s c : total_at s [c] = s_total (cget c (s_calls s)).
Proof. destruct (obs_child s c []) as (E & _). rewrite E. reflexivity. Qed.

Lemma throttle_hot k s l a b : 0 <= k -> NoDup (akeys (s_calls s)) ->
  In a (site_keys (fst (throttle k s)) l) -> In b (site_keys s l) ->
  ~ In b (site_keys (fst (throttle k s)) l) ->
  total_at s [b] <= total_at s [a].
Proof.
  intros Hk Hn. rewrite site_keys_throttle, (site_keys_orig k). rewrite !in_map_iff.
  intros (ea & Ea & Ha) (eb & Eb & Hb) Hnb. subst a b.
  apply filter_In in Ha. destruct Ha as [Ha La]. apply filter_In in Hb. destruct Hb as [Hb Lb].
  assert (Hh : hot eb <= hot ea).
  { apply (kept_hot k (sites_of k (s_calls s))); auto.
    - rewrite sites_of_keys; exact Hn.
    - intros Hin. apply Hnb. exists eb. split; [reflexivity|]. apply filter_In; auto.
    - unfold at_loc in La, Lb. lia. }
  assert (Hia : In ea (sites_of k (s_calls s))) by (apply filter_In in Ha; tauto).
  apply In_sites_of in Hia. destruct Hia as (ca & na & Hia & ->).
  apply In_sites_of in Hb. destruct Hb as (cb & nb & Hib & ->).
  cbn [fst snd hot] in *. rewrite !total_at_1. unfold cget.
  rewrite (aget_NoDup_In callsite_eqb callsite_eqb_spec _ _ _ Hn Hia).
  rewrite (aget_NoDup_In callsite_eqb callsite_eqb_spec _ _ _ Hn Hib). exact Hh.
Qed.

Lemma In_site_keys s l c : In c (site_keys s l) <-> In c (akeys (s_calls s)) /\ fst c = l.
Proof. unfold site_keys. rewrite filter_In. split; intros [? ?]; split; auto; lia. Qed.

Lemma throttle_sub k s l c :
  In c (site_keys (fst (throttle k s)) l) -> In c (site_keys s l).
Proof.
  rewrite site_keys_throttle, (site_keys_orig k). rewrite !in_map_iff.
  intros (e & E & H). exists e. split; [exact E|]. apply filter_In in H. destruct H as [H1 H2].
  apply filter_In in H1. apply filter_In. tauto.
Qed.

(** The decrease of the total. *)
Lemma fold_add64_sum {X} (f : X -> Z) l :
  fold_right (fun e acc => add64 (f e) acc) 0 l = (fold_right Z.add 0 (map f l)) mod 2 ^ 64.
Proof.
  induction l as [|e l IH]; cbn [fold_right map]; [reflexivity|].
  rewrite IH. unfold add64, u64, w64. change (2 ^ 64) with 18446744073709551616.
  rewrite Zplus_mod_idemp_r. reflexivity.
Qed.
Lemma sum_partition {X} (p : X -> bool) (f : X -> Z) l :
  fold_right Z.add 0 (map f (filter p l)) + fold_right Z.add 0 (map f (filter (fun e => negb (p e)) l))
  = fold_right Z.add 0 (map f l).
Proof.
  induction l as [|e l IH]; [reflexivity|]. cbn [filter map fold_right].
  destruct (p e); cbn [negb map fold_right]; lia.
Qed.
Lemma sum_ext_in {X} (f g : X -> Z) l : (forall x, In x l -> f x = g x) ->
  fold_right Z.add 0 (map f l) = fold_right Z.add 0 (map g l).
Proof. intros H. f_equal. apply map_ext_in. exact H. Qed.

Lemma throttle_removed k s : snd (throttle k s) = s_total s - s_total (fst (throttle k s)).
Proof. destruct s as [h t ts pos calls]. rewrite throttle_eq. cbn [s_total]. lia. Qed.

Lemma throttle_total k s : 0 <= k -> NoDup (akeys (s_calls s)) -> 
  let s' := fst (throttle k s) in
  s_total s' = s_total s -
    Z.min (s_total s)
      ((fold_right Z.add 0 (map (fun c => total_at s [c] - total_at s' [c]) (akeys (s_calls s)))) mod 2 ^ 64).
Proof.
  intros Hk Hn s'.
  assert (E : snd (throttle k s) = Z.min (s_total s)
     ((fold_right Z.add 0 (map (fun c => total_at s [c] - total_at s' [c]) (akeys (s_calls s)))) mod 2 ^ 64)).
  2:{ unfold s' in *. rewrite <- E, throttle_removed. lia. }
  assert (Hch : forall c, aget callsite_eqb c (s_calls s') =
     if stays k (s_calls s) c
     then option_map (fun n => fst (throttle k n)) (aget callsite_eqb c (s_calls s)) else None)
    by (intros c; apply child_throttle).
  clearbody s'.
  destruct s as [h t ts pos calls]. cbn [s_calls] in Hn, Hch. cbn [throttle snd s_total s_calls].
  fold (sites_of k calls).
  assert (Hz : zlen calls = zlen (sites_of k calls)) by (unfold zlen, sites_of; rewrite map_length; reflexivity).
  rewrite Hz. fold (erased_of k (sites_of k calls)).
  rewrite !fold_add64_sum.
  match goal with |- context [add64 (?a mod _) (?b mod _)] => set (x := a); set (y := b) end.
  assert (Hsum : x + y = fold_right Z.add 0 (map (fun c => total_at (Sym h t ts pos calls) [c] - total_at s' [c]) (akeys calls))).
  { unfold x, y. rewrite <- (sites_of_keys k calls), map_map.
    etransitivity; [|apply (sum_partition (fun e => existsb (callsite_eqb (fst e)) (erased_of k (sites_of k calls))))].
    f_equal; apply sum_ext_in; intros e He; apply filter_In in He; destruct He as [He Hb];
      apply In_sites_of in He; destruct He as (c & n & Hi & ->); cbn [fst snd] in *;
      rewrite !total_at_1; unfold cget; rewrite Hch; unfold stays; cbn [s_calls];
      rewrite (aget_NoDup_In callsite_eqb callsite_eqb_spec _ _ _ Hn Hi).
    - rewrite Hb. cbn [negb sym0 s_total]. lia.
    - rewrite Hb. cbn [option_map]. apply throttle_removed. }
  rewrite <- Hsum. unfold add64, u64, w64. change (2 ^ 64) with 18446744073709551616.
  rewrite <- Zplus_mod. set (r := (x + y) mod 18446744073709551616). 
  destruct (Z.ltb_spec t r); lia.
Qed.

(** Well-formedness. *)
Lemma throttle_bounds k s : sym_ok s -> 0 <= snd (throttle k s) <= s_total s.
Proof.
  intros [h t ts pos calls Hh Ht Hp Hn Hc]. cbn [throttle snd s_total].
  match goal with |- context [add64 ?a ?b] => set (r := add64 a b); assert (0 <= r) by (unfold r; apply add64_range) end.
  unfold is_u64 in Ht. destruct (Z.ltb_spec t r); lia.
Qed.
Lemma throttle_ok k s : sym_ok s -> sym_ok (fst (throttle k s)).
Proof.
  induction s as [h t ts pos calls IH] using symbol_ind'. intros Hs.
  pose proof (throttle_bounds k _ Hs) as Hb. cbn [s_total] in Hb.
  inversion Hs as [? ? ? ? ? Hh Ht Hp Hn Hc]; subst.
  rewrite throttle_eq, kept_map. constructor; auto.
  - unfold is_u64 in *. lia.
  - unfold akeys in *. rewrite map_map. cbn [fst].
    assert (Hm : NoDup (map (@fst callsite symbol) (filter (fun e => stays k calls (fst e)) calls))).
    { generalize (stays k calls) as g. intros g. clear - Hn. induction calls as [|[c n] l IHl]; [constructor|].
      cbn [map fst] in Hn. inversion Hn; subst. cbn [filter fst].
      destruct (g c); [|auto]. cbn [map fst]. constructor; [|auto].
      rewrite in_map_iff. intros ([c' n'] & E & Hi). apply filter_In in Hi. cbn [fst] in E. subst c'.
      apply H1. apply in_map_iff. exists (c, n'). tauto. }
    exact Hm.
  - intros c n Hi. apply in_map_iff in Hi. destruct Hi as ([c' n'] & E & Hi). cbn [fst snd] in E.
    injection E; intros; subst. apply filter_In in Hi. destruct Hi as [Hi _]. eauto.
Qed.
