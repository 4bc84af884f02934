(** C57, continued: the counters, what stays inlined, and what happens to the source. *)
From Verif Require Import Base AssocFold SymbolModel SymbolSpec SymbolProofs AttribProofs AfdoModel AfdoReadProofs
  FlattenModel FlattenSpec FlattenPureProofs FlattenMapProofs FlattenAllProofs HybridModel HybridSpec HybridViewProofs HybridBodyProofs HybridPopProofs HybridProps.

(** All inlined callees of a tree. *)
Fixpoint inlinees (s : symbol) : list symbol :=
  match s with Sym _ _ _ _ cs => flat_map (fun kc => snd kc :: inlinees (snd kc)) cs end.

Lemma inlinees_placed thr s : forall n p, zlen (placed_calls thr n p (s_calls s)) = zlen (inlinees s) /\
  nroots (placed_calls thr n p (s_calls s)) = zlen (filter (fun c => s_total c <=? thr) (inlinees s)).
Proof.
  induction s as [h t ts pos cs IH] using symbol_ind'. intros n p. cbn [s_calls inlinees]. induction cs as [|[k c] cs IHc]; [split; reflexivity|].
  rewrite placed_calls_cons, zlen_app, nroots_app. cbn [flat_map snd]. rewrite filter_app, !zlen_app. destruct IHc as [I1 I2]; [intros k0 c0 H; apply (IH k0 c0); right; exact H|]. rewrite I1, I2.
  cbn [filter]. destruct (IH k c (or_introl eq_refl) (snd k) []) as [A1 A2]. destruct (IH k c (or_introl eq_refl) n (p ++ [k])) as [B1 B2]. destruct (s_total c <=? thr) eqn:C; rewrite placed_eq, nroots_cons, !zlen_cons.
  - rewrite A1, A2. match goal with |- context [root_entry ?z] => change (root_entry z) with true end. cbv iota. lia.
  - rewrite B1, B2. match goal with |- context [root_entry ?z] => assert (RE : root_entry z = false) by (unfold root_entry; cbn [fst snd]; destruct (p ++ [k]) eqn:Q; [apply app_eq_nil in Q as [_ Q]; discriminate|reflexivity]); rewrite RE end. cbv iota. lia.
Qed.

(** The two counters grow by the number of inlined callees of the source and by
    the number of those with a total of at most the threshold. *)
Theorem C57_counters thr src m tot num tot0 num0 : smap_ok src -> BuildHybridProfile thr src (SMap [] []) tot0 num0 = Ok (m, tot, num) ->
  let callees := flat_map (fun ns => inlinees (snd ns)) (functions src) in
  tot mod 2 ^ 64 = (tot0 + zlen callees) mod 2 ^ 64 /\ num mod 2 ^ 64 = (num0 + zlen (filter (fun c => s_total c <=? thr) callees)) mod 2 ^ 64.
Proof.
  intros O R. assert (OH : Forall sym_ok (sm_heap src)) by apply O.
  assert (RG : forall n i, In (n, i) (sm_names src) -> (i < length (sm_heap src))%nat).
  { intros n i H. destruct O as [[_ O2] _]. apply (in_map snd) in H. rewrite O2 in H. apply in_seq in H. cbn [snd] in H. lia. }
  assert (O0 : smap_ok (SMap [] [])) by (split; [split; constructor|constructor]).
  destruct (scan_ok thr eqm Z.add 0 ohead eqm_refl eqm_sym eqm_trans eqm_add eqm_comm eqm_assoc eqm_id ltac:(apply eqm_refl) ohead_add (sm_heap src) OH (sm_names src) RG (SMap [] []) tot0 num0 O0)
      as (m' & tot' & num' & R' & _ & T & N). unfold BuildHybridProfile in R. rewrite R' in R. assert (tot' = tot /\ num' = num) as [-> ->] by (split; congruence). clear R R'.
  replace (SMap (sm_names src) (sm_heap src)) with src in * by (destruct src; reflexivity).
  assert (LF : zlen (sm_names src) = zlen (functions src)).
  { unfold functions. clear -RG. induction (sm_names src) as [|[n i] l IH]; [reflexivity|]. cbn [flat_map fst snd]. destruct (nth_error (sm_heap src) i) eqn:E.
    - cbn [app]. rewrite !zlen_cons. rewrite IH; [reflexivity|]. intros n0 i0 H. apply (RG n0 i0). right. exact H.
    - apply nth_error_None in E. specialize (RG n i (or_introl eq_refl)). lia. }
  rewrite LF in *. clear LF.
  assert (X : forall l, zlen (all_placed thr l) - zlen l = zlen (flat_map (fun ns => inlinees (snd ns)) l) /\ nroots (all_placed thr l) - zlen l = zlen (filter (fun c => s_total c <=? thr) (flat_map (fun ns => inlinees (snd ns)) l))).
  { induction l as [|[n s] l [I1 I2]]; [split; reflexivity|]. unfold all_placed. cbn [flat_map fst snd]. fold (all_placed thr l). rewrite filter_app, !zlen_app, nroots_app, placed_eq, nroots_cons, !zlen_cons.
    destruct (inlinees_placed thr s n []) as [-> ->]. match goal with |- context [root_entry ?z] => change (root_entry z) with true end. cbv iota. lia. }
  destruct (X (functions src)) as [X1 X2]. split; apply eqm_mod.
  - rewrite <- X1. destruct T as [z ->]. exists z. lia.
  - rewrite <- X2. destruct N as [z ->]. exists z. lia.
Qed.
Print Assumptions C57_counters.

Lemma placed_path thr s : forall n p F q c, In (F, q, c) (placed_calls thr n p (s_calls s)) -> q <> [] -> thr < s_total c.
Proof.
  induction s as [h t ts pos cs IH] using symbol_ind'. intros n p F q c. cbn [s_calls].
  intros H NE. unfold placed_calls in H. apply in_flat_map in H as ([k d] & Kd & H). cbn [fst snd] in H. destruct (Z.leb_spec (s_total d) thr) as [L|L]; rewrite placed_eq in H; destruct H as [H|H].
  - congruence.
  - exact (IH k d Kd _ _ _ _ _ H NE).
  - congruence.
  - exact (IH k d Kd _ _ _ _ _ H NE).
Qed.
Lemma sumz_nonneg {A} (f : A -> Z) l : (forall x, In x l -> 0 <= f x) -> 0 <= sumz f l.
Proof. induction l as [|x l IH]; intros H; cbn [sumz]; [lia|]. pose proof (H x (or_introl eq_refl)). assert (0 <= sumz f l) by (apply IH; intros y Hy; apply H; right; exact Hy). lia. Qed.

(** What stays inlined is hot: unless its total overflows, every inlined callee
    of the result has a total above the threshold. *)
Theorem C57_inlined_hot thr src m tot num F p s : smap_ok src -> 0 <= thr -> BuildHybridProfile thr src (SMap [] []) 0 0 = Ok (m, tot, num) ->
  node_of m F p = Some s -> p <> [] -> sumz s_total (placed_at thr F p src) < 2 ^ 64 -> thr < s_total s.
Proof.
  intros O T0 R NS NE LT. destruct (C57_hybrid thr src O) as (m' & t' & n' & R' & _ & PR & H). rewrite R in R'. assert (m' = m) as -> by congruence.
  destruct (H F p s NS) as (_ & -> & _). assert (P : placed_at thr F p src <> []) by (apply PR; congruence).
  assert (HOT : forall c, In c (placed_at thr F p src) -> thr < s_total c).
  { intros c Hc. unfold placed_at in Hc. apply in_map_iff in Hc as ([[n q] d] & <- & K). apply filter_In in K as [K1 K2]. cbn [fst snd] in *. apply andb_prop in K2 as [_ K2]. destruct (path_eqb_spec q p) as [->|]; [|discriminate].
    apply in_flat_map in K1 as ([n0 r] & _ & K1). cbn [fst snd] in K1. rewrite placed_eq in K1. destruct K1 as [K1|K1]; [congruence|]. exact (placed_path thr r _ _ _ _ _ K1 NE). }
  destruct (placed_at thr F p src) as [|c l]; [congruence|]. cbn [sumz] in *. assert (thr < s_total c) by (apply HOT; left; reflexivity).
  assert (0 <= sumz s_total l) by (apply sumz_nonneg; intros x Hx; assert (thr < s_total x) by (apply HOT; right; exact Hx); lia). rewrite Z.mod_small; lia.
Qed.
Print Assumptions C57_inlined_hot.

(** *** A profile: main inlines hot h (which inlines cold c) and cold d. *)
Definition h_c := Sym 0 4 0 [(1, PInfo 4 1 [])] [].
Definition h_h := Sym 0 60 0 [(1, PInfo 56 2 [])] [((3, [99]), h_c)].
Definition h_d := Sym 0 9 0 [(2, PInfo 9 1 [])] [].
Definition h_main := Sym 7 90 0 [(1, PInfo 21 1 [])] [((5, [104]), h_h); ((6, [100]), h_d)].
Definition h_out := Sym 3 10 0 [(1, PInfo 10 1 [])] [].
Definition h_src := SMap [([109], 0%nat); ([99], 1%nat)] [h_main; h_out].

Lemma h_pos_ok l c n : 0 <= l -> 0 <= c < 2 ^ 64 -> 0 <= n < 2 ^ 64 -> pos_ok [(l, PInfo c n [])].
Proof. intros _ H1 H2. split; [repeat constructor; intros []|]. constructor; [|constructor]. split; [exact H1|]. split; [exact H2|]. split; constructor. Qed.
Lemma h_leaf h t l c n : 0 <= h < 2 ^ 64 -> 0 <= t < 2 ^ 64 -> 0 <= l -> 0 <= c < 2 ^ 64 -> 0 <= n < 2 ^ 64 -> sym_ok (Sym h t 0 [(l, PInfo c n [])] []).
Proof. intros. constructor; auto; [apply h_pos_ok; auto|constructor|intros ? ? []]. Qed.
Lemma h_src_ok : smap_ok h_src.
Proof.
  assert (B : forall x, 0 <= x -> x < 100 -> 0 <= x < 2 ^ 64) by (intros; lia).
  split; [split; [cbn; repeat constructor; cbn; intuition discriminate|reflexivity]|]. constructor; [|constructor; [apply h_leaf; try apply B; lia|constructor]].
  constructor; [apply B; lia|apply B; lia|apply h_pos_ok; try apply B; lia|cbn; repeat constructor; cbn; intuition discriminate|].
  intros k c [E|[E|[]]].
  - assert (c = h_h) as -> by congruence. constructor; [apply B; lia|apply B; lia|apply h_pos_ok; try apply B; lia|cbn; repeat constructor; cbn; intuition discriminate|].
    intros k' c' [E'|[]]. assert (c' = h_c) as -> by congruence. apply h_leaf; try apply B; lia.
  - assert (c = h_d) as -> by congruence. apply h_leaf; try apply B; lia.
Qed.
Example C57_nonvacuous : smap_ok h_src /\
  match BuildHybridProfile 9 h_src (SMap [] []) 0 0 with
  | Ok (m, tot, num) =>
      tot = 3 /\ num = 2 /\ map fst (sm_names m) = [[109]; [99]; [100]] /\
      match node_of m [109] [(5, [104])], node_of m [99] [], node_of m [109] [] with
      | Some h, Some c, Some r => s_total h = 60 /\ has_target h [] 3 [99] = true /\ s_total c = 14 /\ count_at c [] 1 = 14 /\ s_head c = 3 /\ has_target r [] 6 [100] = true
      | _, _, _ => False
      end
  | _ => False
  end.
Proof. split; [exact h_src_ok|]. vm_compute. tauto. Qed.

(** The source is passed as a constant, but building a hybrid profile changes
    it: building a second one from the same source gives other call counts. *)
Definition y_src := SMap [([109], 0%nat)] [Sym 7 90 0 [] [((6, [100]), Sym 5 9 0 [] [])]].
Lemma y_src_ok : smap_ok y_src.
Proof.
  assert (B : forall x, 0 <= x -> x < 100 -> 0 <= x < 2 ^ 64) by (intros; lia).
  split; [split; [cbn; repeat constructor; cbn; intuition discriminate|reflexivity]|]. constructor; [|constructor].
  constructor; [apply B; lia|apply B; lia|exact nil_ok|cbn; repeat constructor; cbn; intuition discriminate|].
  intros k c [E|[]]. assert (c = Sym 5 9 0 [] []) as -> by congruence. constructor; [apply B; lia|apply B; lia|exact nil_ok|constructor|intros ? ? []].
Qed.
Theorem C57_source_kept_refuted :
  ~ (forall thr src m1 t1 n1 m2 t2 n2, smap_ok src ->
       BuildHybridProfile thr src (SMap [] []) 0 0 = Ok (m1, t1, n1) ->
       BuildHybridProfile thr (src_after thr src) (SMap [] []) 0 0 = Ok (m2, t2, n2) ->
       forall F s1 s2 l t, node_of m1 F [] = Some s1 -> node_of m2 F [] = Some s2 -> target_at s1 [] l t = target_at s2 [] l t).
Proof.
  intros H. destruct (BuildHybridProfile 10 y_src (SMap [] []) 0 0) as [[[m1 t1] n1]| |] eqn:E1; [|vm_compute in E1; discriminate E1|vm_compute in E1; discriminate E1].
  destruct (BuildHybridProfile 10 (src_after 10 y_src) (SMap [] []) 0 0) as [[[m2 t2] n2]| |] eqn:E2; [|vm_compute in E2; discriminate E2|vm_compute in E2; discriminate E2].
  specialize (H 10 y_src m1 t1 n1 m2 t2 n2 y_src_ok E1 E2 [109]).
  assert (V1 : match BuildHybridProfile 10 y_src (SMap [] []) 0 0 with Ok (m, _, _) => match node_of m [109] [] with Some s => Some (target_at s [] 6 [100]) | None => None end | _ => None end = Some 5) by (vm_compute; reflexivity).
  assert (V2 : match BuildHybridProfile 10 (src_after 10 y_src) (SMap [] []) 0 0 with Ok (m, _, _) => match node_of m [109] [] with Some s => Some (target_at s [] 6 [100]) | None => None end | _ => None end = Some 10) by (vm_compute; reflexivity).
  rewrite E1 in V1. rewrite E2 in V2. destruct (node_of m1 [109] []) as [s1|]; [|discriminate V1]. destruct (node_of m2 [109] []) as [s2|]; [|discriminate V2].
  specialize (H s1 s2 6 [100] eq_refl eq_refl). congruence.
Qed.
Print Assumptions C57_source_kept_refuted.
