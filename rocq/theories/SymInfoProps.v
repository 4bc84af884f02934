(** C75: names and section of the functions of the address map. *)
From Verif Require Import Base SymbolModel SymbolProofs SymInfoModel SymInfoSpec.
Import ListNotations.
Open Scope Z_scope.

Lemma check_size_spec z l : check_size_ok z l = forallb (fun s => e_size s =? z) l.
Proof.
  induction l as [|s l IH]; [reflexivity|]. cbn [check_size_ok forallb]. rewrite IH.
  destruct (Z.eqb_spec z (e_size s)), (Z.eqb_spec (e_size s) z); try congruence; reflexivity.
Qed.
Lemma symbols_at_sizes l a s t : In s (symbols_at l a) -> In t (symbols_at l a) -> e_size s = e_size t.
Proof.
  unfold symbols_at. destruct (filter (names_function a) l) as [|u r]; [intros []|].
  rewrite !filter_In, !Z.eqb_eq. intros [_ ->] [_ ->]. reflexivity.
Qed.
Lemma symbols_at_snoc l a s : symbols_at (l ++ [s]) a =
  if names_function a s && forallb (fun t => e_size t =? e_size s) (symbols_at l a) then symbols_at l a ++ [s] else symbols_at l a.
Proof.
  unfold symbols_at. rewrite filter_app. change (filter (names_function a) [s]) with (if names_function a s then [s] else []).
  destruct (filter (names_function a) l) as [|u r] eqn:E.
  - cbn [app]. destruct (names_function a s); [|reflexivity]. cbn [filter forallb andb app]. rewrite Z.eqb_refl. reflexivity.
  - destruct (names_function a s); [|rewrite app_nil_r; reflexivity].
    transitivity (filter (fun t => e_size t =? e_size u) ((u :: r) ++ [s])); [reflexivity|]. rewrite filter_app.
    assert (G : forall c, In u c -> (forall t, In t c -> e_size t = e_size u) ->
      c ++ filter (fun t => e_size t =? e_size u) [s] = if true && forallb (fun t => e_size t =? e_size s) c then c ++ [s] else c).
    { intros c IC AC. cbn [filter andb]. destruct (Z.eqb_spec (e_size s) (e_size u)) as [Q|Q].
      - assert (forallb (fun t => e_size t =? e_size s) c = true) as ->; [|reflexivity].
        apply forallb_forall. intros t I. apply Z.eqb_eq. rewrite Q. auto.
      - rewrite app_nil_r. destruct (forallb _ c) eqn:F; [|reflexivity]. rewrite forallb_forall in F. specialize (F u IC). apply Z.eqb_eq in F. congruence. }
    apply G.
    + apply filter_In. split; [left; auto|apply Z.eqb_refl].
    + intros t I. apply filter_In in I. destruct I as [_ I]. apply Z.eqb_eq in I. exact I.
Qed.

Definition entry_at (l : list esym) (a : Z) : option (list esym) := match symbols_at l a with [] => None | c => Some c end.
Lemma read_spec l2 : forall l1 tab, (forall a, aget Z.eqb a tab = entry_at l1 a) ->
  forall a, aget Z.eqb a (read_symbols l2 tab) = entry_at (l1 ++ l2) a.
Proof.
  induction l2 as [|s l2 IH]; intros l1 tab H a; [rewrite app_nil_r; apply H|].
  cbn [read_symbols]. replace (l1 ++ s :: l2) with ((l1 ++ [s]) ++ l2) by (rewrite <- app_assoc; reflexivity).
  apply IH. clear IH a. intros a.
  assert (SAME : (forall x, names_function x s = false) -> aget Z.eqb a tab = entry_at (l1 ++ [s]) a).
  { intros NF. rewrite H. unfold entry_at. rewrite symbols_at_snoc, NF. reflexivity. }
  unfold STT_FUNC. destruct (Z.eqb_spec (e_type s) 2) as [T|T]; cbn [negb].
  2: { apply SAME. intros x. unfold names_function. destruct (Z.eqb_spec (e_type s) 2); [contradiction|reflexivity]. }
  destruct (e_addr s) as [b|] eqn:EA.
  2: { apply SAME. intros x. unfold names_function. rewrite EA, andb_false_r. reflexivity. }
  destruct (Z.eqb_spec b 0) as [B0|B0].
  { apply SAME. intros x. unfold names_function. rewrite EA. destruct (Z.eqb_spec b x) as [<-|]; [|rewrite andb_false_r; reflexivity].
    rewrite B0. cbn [negb]. rewrite Z.eqb_refl. cbn [negb]. rewrite !andb_false_r. reflexivity. }
  destruct (e_name s) as [n|] eqn:EN.
  2: { apply SAME. intros x. unfold names_function. rewrite EN, andb_false_r. reflexivity. }
  destruct (Z.eqb_spec (e_size s) 0) as [S0|S0].
  { apply SAME. intros x. unfold names_function. rewrite S0. cbn [negb Z.eqb]. rewrite !andb_false_r. reflexivity. }
  rewrite (aget_aset Z.eqb Z.eqb_spec), check_size_spec, !H. unfold entry_at. rewrite symbols_at_snoc.
  destruct (Z.eqb_spec a b) as [-> |NE].
  - assert (names_function b s = true) as ->.
    { unfold names_function. rewrite EA, EN, T, !Z.eqb_refl. destruct (Z.eqb_spec (e_size s) 0); [contradiction|]. destruct (Z.eqb_spec b 0); [contradiction|]. reflexivity. }
    cbn [andb]. destruct (symbols_at l1 b) as [|u r]; [reflexivity|]. cbv beta iota.
    destruct (forallb _ (u :: r)); reflexivity.
  - assert (names_function a s = false) as ->; [|reflexivity].
    unfold names_function. rewrite EA. destruct (Z.eqb_spec b a); [congruence|]. rewrite !andb_false_r. reflexivity.
Qed.
Lemma table_spec l a : aget Z.eqb a (ReadSymbolTable l) = entry_at l a.
Proof. unfold ReadSymbolTable. rewrite (read_spec l [] []); reflexivity. Qed.

Lemma starts_spec p : forall s, starts_with p s = true <-> exists r, s = p ++ r.
Proof.
  induction p as [|c p IH]; intros s; cbn [starts_with app].
  - split; eauto.
  - destruct s as [|d s]; [split; [discriminate|intros (r & Q); discriminate]|].
    rewrite andb_true_iff, Z.eqb_eq, IH. split.
    + intros (-> & r & ->). eauto.
    + intros (r & Q). injection Q as -> ->. eauto.
Qed.
Lemma group_spec sn : section_group sn (if name_eqb sn text || starts_with (text ++ [46]) sn then firstn 5 sn else sn).
Proof.
  unfold section_group. cbv zeta. destruct (name_eqb_spec sn text) as [-> |NE]; cbn [orb].
  - left. split; [left; reflexivity|reflexivity].
  - destruct (starts_with (text ++ [46]) sn) eqn:E.
    + apply starts_spec in E. destruct E as (r & ->). left. split; [right; exists r; reflexivity|reflexivity].
    + right. split; [exact NE|]. split; [|reflexivity]. intros r Q.
      assert (starts_with (text ++ [46]) sn = true); [|congruence]. apply starts_spec. exists r. exact Q.
Qed.

Lemma names_of_ok l : (forall s, In s l -> e_name s <> None) -> exists ns, names_of l = Ok ns /\ map Some ns = map e_name l.
Proof.
  induction l as [|s l IH]; intros H; [exists []; auto|]. cbn [names_of]. destruct (e_name s) as [n|] eqn:E; [|exfalso; eapply H; [left; reflexivity|exact E]].
  destruct IH as (ns & -> & Q); [intros; apply H; right; auto|]. exists (n :: ns). cbn [obind map]. rewrite Q, E. auto.
Qed.
Lemma symbols_named l a s : In s (symbols_at l a) -> e_name s <> None /\ names_function a s = true.
Proof.
  unfold symbols_at. destruct (filter (names_function a) l) as [|u r] eqn:E; [intros []|]. rewrite filter_In. intros [I _].
  rewrite <- E in I. apply filter_In in I. destruct I as [_ I]. split; [|exact I]. unfold names_function in I.
  destruct (e_name s); [discriminate|]. rewrite andb_false_r in I. discriminate.
Qed.

(** What the function at index [i] of the address map should get: nothing if no
    symbol names it, else the names of its symbols in symbol-table order and the
    section of the first of them. *)
Definition described (l : list esym) (a : Z) (fi : option FunctionSymbolInfo) : Prop :=
  match symbols_at l a, fi with
  | [], None => True
  | s :: r, Some x => map Some (aliases x) = map e_name (s :: r) /\ exists sn, e_sect s = Some sn /\ section_group sn (section_name x)
  | _, _ => False
  end.

Lemma loop_spec l addrs : (forall a s r, In a addrs -> symbols_at l a = s :: r -> e_sect s <> None) ->
  forall i0, exists m, symbol_info_loop (ReadSymbolTable l) addrs i0 = Ok m /\
    (forall i fi, In (i, fi) m -> i0 <= i) /\ NoDup (akeys m) /\
    forall k a, nth_error addrs k = Some a -> described l a (aget Z.eqb (i0 + Z.of_nat k) m).
Proof.
  induction addrs as [|a addrs IH]; intros SEC i0.
  - exists []. split; [reflexivity|]. split; [intros ? ? []|]. split; [constructor|]. intros [|k] a Q; discriminate.
  - cbn [symbol_info_loop]. rewrite table_spec. unfold entry_at.
    destruct (IH ltac:(intros; eapply SEC; [right|]; eauto) (i0 + 1)) as (m & E & LB & ND & D). clear IH.
    assert (NOT : aget Z.eqb i0 m = None). 
    { destruct (aget Z.eqb i0 m) as [x|] eqn:G; [|reflexivity]. apply (aget_In Z.eqb Z.eqb_spec) in G. apply LB in G. lia. }
    assert (SH : forall k, i0 + Z.of_nat (S k) = i0 + 1 + Z.of_nat k) by lia.
    destruct (symbols_at l a) as [|s r] eqn:SA.
    + exists m. split; [exact E|]. split; [intros i fi I; apply LB in I; lia|]. split; [exact ND|].
      intros [|k] b Q; cbn [nth_error] in Q.
      * injection Q as <-. rewrite Z.add_0_r, NOT. unfold described. rewrite SA. exact Logic.I.
      * rewrite SH. apply D. exact Q.
    + destruct (names_of_ok (s :: r)) as (ns & EN & QN).
      { intros t I. rewrite <- SA in I. apply symbols_named in I. tauto. }
      unfold symbol_info. rewrite EN. cbn [obind].
      destruct (e_sect s) as [sn|] eqn:ES; [|exfalso; eapply (SEC a s r); [left; reflexivity|exact SA|exact ES]].
      cbn [obind]. rewrite E. cbn [obind].
      set (fi := FSI ns (if name_eqb sn text || starts_with (text ++ [46]) sn then firstn 5 sn else sn)).
      exists ((i0, fi) :: m). split; [reflexivity|]. split.
      { intros i x [I|I]; [injection I as <- _; lia|apply LB in I; lia]. }
      split.
      { change (akeys ((i0, fi) :: m)) with (i0 :: akeys m). constructor; [|exact ND]. intros I. unfold akeys in I. apply in_map_iff in I.
        destruct I as ([j x] & Q & I). cbn [fst] in Q. apply LB in I. lia. }
      intros [|k] b Q; cbn [nth_error] in Q.
      * injection Q as <-. rewrite Z.add_0_r. cbn [aget]. rewrite Z.eqb_refl. unfold described. rewrite SA. split; [exact QN|].
        exists sn. split; [exact ES|]. apply group_spec.
      * rewrite SH. cbn [aget]. destruct (Z.eqb_spec (i0 + 1 + Z.of_nat k) i0); [lia|]. apply D. exact Q.
Qed.

(** If the symbols lie in sections, every function of the address map gets
    exactly what describes it, and nothing else is in the map. *)
Theorem C75_symbol_info : forall l addrs,
  (forall a s r, In a addrs -> symbols_at l a = s :: r -> e_sect s <> None) ->
  exists m, GetSymbolInfoMap (ReadSymbolTable l) addrs = Ok m /\ NoDup (akeys m) /\
    (forall k a, nth_error addrs k = Some a -> described l a (aget Z.eqb (Z.of_nat k) m)).
Proof.
  intros l addrs SEC. destruct (loop_spec l addrs SEC 0) as (m & E & _ & ND & D). exists m. split; [exact E|]. split; [exact ND|].
  intros k a Q. apply (D k a Q).
Qed.
Print Assumptions C75_symbol_info.

(** A function has an entry exactly when some symbol names it. *)
Theorem C75_named_functions : forall l addrs m k a,
  (forall a s r, In a addrs -> symbols_at l a = s :: r -> e_sect s <> None) ->
  GetSymbolInfoMap (ReadSymbolTable l) addrs = Ok m -> nth_error addrs k = Some a ->
  (aget Z.eqb (Z.of_nat k) m <> None <-> exists s, In s l /\ names_function a s = true).
Proof.
  intros l addrs m k a SEC E Q. destruct (C75_symbol_info l addrs SEC) as (m' & E' & _ & D). assert (m' = m) by congruence. subst m'.
  specialize (D k a Q). unfold described, symbols_at in D. destruct (filter (names_function a) l) as [|s r] eqn:F.
  - destruct (aget Z.eqb (Z.of_nat k) m); [contradiction|]. split; [congruence|]. intros (s & I & N). exfalso.
    assert (In s (filter (names_function a) l)) as J by (apply filter_In; auto). rewrite F in J. destruct J.
  - cbn [filter] in D. rewrite Z.eqb_refl in D. destruct (aget Z.eqb (Z.of_nat k) m); [|contradiction]. split; [|congruence].
    intros _. exists s. apply filter_In. rewrite F. left; reflexivity.
Qed.
Print Assumptions C75_named_functions.

(** When all symbols at an address have one size, all of them are aliases. *)
Theorem C75_all_aliases : forall l a, (forall s t, In s l -> In t l -> names_function a s = true -> names_function a t = true -> e_size s = e_size t) ->
  symbols_at l a = filter (names_function a) l.
Proof.
  intros l a H. unfold symbols_at. destruct (filter (names_function a) l) as [|s r] eqn:F; [reflexivity|].
  assert (A : forall t, In t (s :: r) -> e_size t = e_size s).
  { intros t I. rewrite <- F in I. apply filter_In in I. destruct I as [I1 I2].
    assert (J : In s (filter (names_function a) l)) by (rewrite F; left; auto). apply filter_In in J. destruct J as [J1 J2]. eauto. }
  clear F H. induction (s :: r) as [|t l' IH]; [reflexivity|]. cbn [filter]. rewrite (A t) by (left; auto). rewrite Z.eqb_refl. f_equal.
  apply IH. intros; apply A; right; auto.
Qed.
Print Assumptions C75_all_aliases.

(** The names a function gets would be expected not to depend on the order of
    the symbol table.  They do, when sizes differ: only the first counts. *)
Theorem C75_order_independent_refuted :
  exists l l' a, (forall s, In s l <-> In s l') /\ NoDup l /\ NoDup l' /\
    map e_name (symbols_at l a) = [Some [102]] /\ map e_name (symbols_at l' a) = [Some [103]] /\
    GetSymbolInfoMap (ReadSymbolTable l) [a] = Ok [(0, FSI [[102]] text)] /\
    GetSymbolInfoMap (ReadSymbolTable l') [a] = Ok [(0, FSI [[103]] text)].
Proof.
  set (f := ESym 2 (Some 16) (Some [102]) 8 (Some text)). set (g := ESym 2 (Some 16) (Some [103]) 4 (Some text)).
  exists [f; g], [g; f], 16. split; [intros s; cbn; tauto|].
  assert (NE : f <> g) by discriminate.
  split; [constructor; [intros [Q|[]]; congruence|constructor; [intros []|constructor]]|].
  split; [constructor; [intros [Q|[]]; congruence|constructor; [intros []|constructor]]|].
  repeat (split; [vm_compute; reflexivity|]). vm_compute. reflexivity.
Qed.
Print Assumptions C75_order_independent_refuted.

(** A function symbol without section (absolute) at the address of a function of
    the address map, listed first, is followed to a section that is not there. *)
Theorem C75_absolute_symbol_refuted : forall s l a addrs,
  names_function a s = true -> e_sect s = None -> GetSymbolInfoMap (ReadSymbolTable (s :: l)) (a :: addrs) = UB.
Proof.
  intros s l a addrs N ES. unfold GetSymbolInfoMap. cbn [symbol_info_loop]. rewrite table_spec. unfold entry_at, symbols_at.
  cbn [filter]. rewrite N. cbn [filter]. rewrite Z.eqb_refl.
  assert (EN : e_name s <> None). { intros Q. unfold names_function in N. rewrite Q, andb_false_r in N. discriminate. }
  unfold symbol_info. cbn [names_of]. destruct (e_name s); [|congruence].
  destruct (names_of _) as [ns| |] eqn:E; cbn [obind]; [rewrite ES; reflexivity| |reflexivity].
  exfalso. revert E. match goal with |- names_of ?x = _ -> _ => generalize x as q end. clear. intros q.
  induction q as [|t r IH]; cbn [names_of]; [discriminate|]. destruct (e_name t); [|discriminate].
  destruct (names_of r); cbn [obind]; try discriminate. auto.
Qed.
Print Assumptions C75_absolute_symbol_refuted.

(** main and its alias in .text.hot, a function in another section, an object, an
    undefined symbol and a function without size. *)
Example C75_nonvacuous :
  let l := [ESym 1 (Some 16) (Some [118]) 8 (Some text); ESym 2 (Some 16) (Some [109]) 8 (Some (text ++ [46; 104]));
            ESym 2 (Some 32) (Some [122]) 0 (Some text); ESym 2 (Some 16) (Some [97]) 8 (Some (text ++ [46; 104]));
            ESym 2 (Some 0) (Some [117]) 0 None; ESym 2 (Some 48) (Some [105]) 4 (Some [46; 105])] in
  GetSymbolInfoMap (ReadSymbolTable l) [16; 32; 48] = Ok [(0, FSI [[109]; [97]] text); (2, FSI [[105]] [46; 105])] /\
  (forall a s r, In a [16; 32; 48] -> symbols_at l a = s :: r -> e_sect s <> None).
Proof.
  split; [vm_compute; reflexivity|]. intros a s r [<-|[<-|[<-|[]]]] Q; vm_compute in Q; try discriminate; injection Q as <- _; discriminate.
Qed.
