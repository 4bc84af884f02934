(** C61: the inline stack of an address. *)
From Coq Require Import Sorted Permutation.
From Verif Require Import Base ISort RangeMapModel DwLineModel DwTreeModel DwTreeSpec DwTreeWalk DwTreeBad DwTreeGood DwTreePop DwTreeProofs.

(** For units whose entries are well formed: an address in a function of the binary
    whose position the line table knows has the stack of the debugging entries: the
    innermost inlined call or function, then for every inlined call the function it was
    inlined in, with the position of the call. *)
Theorem C61_stack vaddr us f lines x place path fs : 0 <= vaddr -> reads_units us f -> NoDup (map n_offset (nodes f)) -> good_forest vaddr f ->
  stack_at vaddr x f path -> lookup x lines = Ok (Some place) -> frames f place path fs ->
  exists st m fuel0, read_dies us state0 = Ok st /\ PopulateSubprogramsByAddress vaddr st = Ok m /\
    forall fuel, (fuel0 <= fuel)%nat -> GetInlineStack st fuel lines m x = Some (Ok fs).
Proof.
  intros V0 RU ND GF SA LK FR. destruct (state_read us f RU) as (st & RD & OB & BO & OD). assert (PL : placed st None None O f) by (apply (placed_objects st f None None [] []); cbn [app length]; rewrite app_nil_r; exact OB).
  destruct (populated vaddr st f V0 PL OD GF (units_sorted us f RU)) as (m & PO & GS). destruct (stack_found st f PL vaddr x path GF SA) as (i & TI & CH).
  destruct FR as [n l nm line fs FI CF]. assert (IN : is_node st i n) by (destruct l; apply CH). destruct (function_read st f PL BO ND n nm line i FI IN) as (F1 & G1). destruct (callers_read st f PL BO ND (n :: l) fs CF i CH) as (F2 & G2).
  exists st, m, (F1 + F2)%nat. split; [exact RD|]. split; [exact PO|]. intros fuel L. unfold GetInlineStack. rewrite LK. cbn [obind2]. destruct place as [[[dir file] ln] disc]. rewrite GS, TI, (G1 fuel ltac:(lia)). cbn [obind2]. rewrite (G2 fuel ltac:(lia)). cbn [obind2 fst snd]. rewrite full_eq. reflexivity.
Qed.
(** An address outside of all functions has its position, and no function. *)
Theorem C61_nowhere vaddr us f lines x dir file line disc fuel : 0 <= vaddr -> reads_units us f -> NoDup (map n_offset (nodes f)) -> good_forest vaddr f ->
  nowhere vaddr x f -> lookup x lines = Ok (Some (dir, file, line, disc)) ->
  exists st m, read_dies us state0 = Ok st /\ PopulateSubprogramsByAddress vaddr st = Ok m /\ GetInlineStack st fuel lines m x = Some (Ok [(None, dir, file, 0, line, disc)]).
Proof.
  intros V0 RU ND GF NW LK. destruct (state_read us f RU) as (st & RD & OB & BO & OD). assert (PL : placed st None None O f) by (apply (placed_objects st f None None [] []); cbn [app length]; rewrite app_nil_r; exact OB).
  destruct (populated vaddr st f V0 PL OD GF (units_sorted us f RU)) as (m & PO & GS). exists st, m. split; [exact RD|]. split; [exact PO|]. unfold GetInlineStack. rewrite LK. cbn [obind2]. rewrite GS, (nowhere_found vaddr x f O GF NW). reflexivity.
Qed.
(** An address without a position has the empty stack, whatever the entries are. *)
Theorem C61_no_position st lines m x fuel : lookup x lines = Ok None -> GetInlineStack st fuel lines m x = Some (Ok []).
Proof. intros E. unfold GetInlineStack. rewrite E. reflexivity. Qed.
(** Whatever the entries are: two functions that are kept have no common address. *)
Theorem C61_functions_disjoint vaddr st i j : In i (order st) -> In j (order st) -> i <> j -> s_inlined (obj i st) = false -> s_inlined (obj j st) = false ->
  ~ In i (FindBadSubprograms vaddr st) -> ~ In j (FindBadSubprograms vaddr st) ->
  forall x r q, In r (s_ranges (obj i st)) -> In q (s_ranges (obj j st)) -> ~ (fst r <= x < snd r /\ fst q <= x < snd q).
Proof. intros A B C D E F G x r q Hr Hq H. destruct (kept_disjoint vaddr st i j A B C D E F G r q Hr Hq); lia. Qed.
(** Sorting and merging ranges keeps the addresses; the result is sorted and has no
    overlaps. *)
Theorem C61_merge l : Forall (fun q => fst q <= snd q) l ->
  (forall x, (exists q, In q (SortAndMerge l) /\ fst q <= x < snd q) <-> (exists q, In q l /\ fst q <= x < snd q)) /\ StronglySorted (fun q q' => snd q <= fst q') (SortAndMerge l).
Proof. apply SortAndMerge_spec. Qed.

Definition names0 : cu := {| dirs := [[47; 99]; [100]]; files := [(0, [122]); (1, [97])] |}.
Definition unit0 kids : Z * cu * die := (0, names0, Die 11 TagUnit [ACompDir [47; 99]] kids).
(** Position of every address from x on: directory "x", file "m", line 7, discriminator 1. *)
Definition lines0 (x : Z) : linemap := {| line_map := [(x, 1)]; logical_lines := [([120], [109], 7, 1)] |}.
Definition stack_of (vaddr : Z) (us : list (Z * cu * die)) (fuel : nat) (x : Z) : option (outcome (list source)) :=
  match read_dies us state0 with
  | Ok st => match PopulateSubprogramsByAddress vaddr st with Ok m => GetInlineStack st fuel (lines0 x) m x | Abort => Some Abort | UB => Some UB end
  | Abort => Some Abort
  | UB => Some UB
  end.
(** f at 100 with a call of g inlined inside a block, with a call of h inlined in that;
    a declaration of g and of h; a function in two parts; a dropped function. *)
Definition h_call := Die 32 TagInlined [AAbstractOrigin true 70; ARanges [(114, 115); (112, 113)]; ACallFile true 1; ACallLine false 10; ADiscriminator 4] [].
Definition g_call := Die 31 TagInlined [AAbstractOrigin false 60; ALowPc 110; AHighPc 10 true; ACallFile false 1; ACallLine false 5] [h_call].
Definition dies1 : list die :=
  [Die 20 TagSubprogram [AName [102]; ADeclLine false 3; ALowPc 100; AHighPc 50 true] [Die 30 TagOther [ALowPc 110; AHighPc 20 true] [g_call]];
   Die 60 TagSubprogram [AName [103]; ALinkageName [95; 103]; ADeclLine false 9] [];
   Die 70 TagSubprogram [AName [104]] [];
   Die 80 TagSubprogram [ALinkageName [105]; ADeclLine false 20; ARanges [(300, 310); (200, 220)]] [];
   Die 90 TagSubprogram [AName [106]; ADeclLine false 21; ALowPc 5; AHighPc 50 true] [Die 91 TagInlined [AAbstractOrigin true 70; ALowPc 8; AHighPc 200 true] []]].
Definition node1 off inl nm rs line disc orig call : node := {| n_offset := off; n_inlined := inl; n_comp := [47; 99]; n_info := {| i_name := nm; i_ranges := rs; i_line := line; i_discr := disc; i_origin := orig; i_spec := 0; i_call := call |} |}.
Definition nf := node1 20 false [102] [(100, 150)] 3 0 0 None.
Definition ng := node1 31 true [] [(110, 120)] 5 0 60 (Some ([100], [97])).
Definition nh := node1 32 true [] [(112, 113); (114, 115)] 10 4 70 (Some ([100], [97])).
Definition dg := node1 60 false [95; 103] [] 9 0 0 None.
Definition dh := node1 70 false [104] [] 0 0 0 None.
Definition ni := node1 80 false [105] [(200, 220); (300, 310)] 20 0 0 None.
Definition nj := node1 90 false [106] [(5, 55)] 21 0 0 None.
Definition nk := node1 91 true [] [(8, 208)] 0 0 70 None.
Definition forest1 : forest :=
  FCons nf (FCons ng (FCons nh FNil FNil) FNil) (FCons dg FNil (FCons dh FNil (FCons ni FNil (FCons nj (FCons nk FNil FNil) FNil)))).
Ltac o1 k := match eval compute in k with
  | 0%nat => exists (@nil attr) | 1%nat => match goal with |- only (?a :: _) _ _ => exists [a] end
  | 2%nat => match goal with |- only (?a :: ?b :: _) _ _ => exists [a; b] end
  | 3%nat => match goal with |- only (?a :: ?b :: ?c :: _) _ _ => exists [a; b; c] end
  | 4%nat => match goal with |- only (?a :: ?b :: ?c :: ?d :: _) _ _ => exists [a; b; c; d] end end; eexists; split; [cbn [app]; reflexivity|reflexivity].
Ltac try_only := first [o1 0%nat | o1 1%nat | o1 2%nat | o1 3%nat | o1 4%nat].
Ltac ref := first [right; split; [reflexivity|reflexivity]|left; first [eexists false, _|eexists true, _]; split; [try_only|reflexivity]].
Example reads1 : reads_units [unit0 dies1] forest1.
Proof.
  change forest1 with (fapp forest1 FNil). constructor; [|constructor]. apply (ru 0 names0 11 [ACompDir [47; 99]] dies1 [47; 99] forest1).
  - exists [], []. split; reflexivity.
  - repeat constructor.
  - unfold dies1, forest1, nf, ng, nh, dg, dh, ni, nj, nk, node1.
    assert (MH : means 0 names0 true [AAbstractOrigin true 70; ARanges [(114, 115); (112, 113)]; ACallFile true 1; ACallLine false 10; ADiscriminator 4] {| i_name := []; i_ranges := [(112, 113); (114, 115)]; i_line := 10; i_discr := 4; i_origin := 70; i_spec := 0; i_call := Some ([100], [97]) |}).
    { split; [reflexivity|]. split; [right; right; split; [reflexivity|split; reflexivity]|]. split; [right; left; exists [(114, 115); (112, 113)]; split; [try_only|split; [apply perm_swap|split; [constructor; [constructor; constructor|constructor; [cbn; lia|constructor]]|constructor; [cbn; lia|constructor; [cbn; lia|constructor]]]]]|].
      split; [left; exists false; try_only|]. split; [left; try_only|]. split; [left; exists true, 70; split; [try_only|reflexivity]|]. split; [right; split; reflexivity|]. split; [right; exists true, 1, 1, [97], [100]; split; [try_only|repeat split; try reflexivity; lia]|]. cbn; lia. }
    assert (MG : means 0 names0 true [AAbstractOrigin false 60; ALowPc 110; AHighPc 10 true; ACallFile false 1; ACallLine false 5] {| i_name := []; i_ranges := [(110, 120)]; i_line := 5; i_discr := 0; i_origin := 60; i_spec := 0; i_call := Some ([100], [97]) |}).
    { split; [reflexivity|]. split; [right; right; split; [reflexivity|split; reflexivity]|]. split; [right; right; exists [AAbstractOrigin false 60], [], [ACallFile false 1; ACallLine false 5], 110, 10, true; repeat split; try reflexivity; lia|].
      split; [left; exists false; try_only|]. split; [right; split; reflexivity|]. split; [left; exists false, 60; split; [try_only|reflexivity]|]. split; [right; split; reflexivity|]. split; [right; exists false, 1, 1, [97], [100]; split; [try_only|repeat split; try reflexivity; lia]|]. cbn; lia. }
    apply rd_sub; [| |apply rd_sub; [|constructor|apply rd_sub; [|constructor|apply rd_sub; [|constructor|apply rd_sub; [|apply rd_inl; [|constructor|constructor]|constructor]]]]].
    + split; [reflexivity|]. split; [right; left; split; [reflexivity|try_only]|]. split; [right; right; exists [AName [102]; ADeclLine false 3], [], [], 100, 50, true; repeat split; try reflexivity; lia|].
      split; [split; [reflexivity|left; try_only]|]. split; [right; split; reflexivity|]. split; [right; split; reflexivity|]. split; [right; split; reflexivity|]. split; [left; split; reflexivity|]. cbn; lia.
    + apply (rd_other 0 names0 [47; 99] 30 _ [g_call] [] (FCons ng (FCons nh FNil FNil) FNil) FNil); [|constructor]. apply rd_inl; [exact MG| |constructor]. apply rd_inl; [exact MH|constructor|constructor].
    + split; [reflexivity|]. split; [left; split; [try_only|discriminate]|]. split; [left; split; reflexivity|]. split; [split; [reflexivity|left; try_only]|]. split; [right; split; reflexivity|]. split; [right; split; reflexivity|]. split; [right; split; reflexivity|]. split; [left; split; reflexivity|]. cbn; lia.
    + split; [reflexivity|]. split; [right; left; split; [reflexivity|try_only]|]. split; [left; split; reflexivity|]. split; [split; [reflexivity|right; split; reflexivity]|]. split; [right; split; reflexivity|]. split; [right; split; reflexivity|]. split; [right; split; reflexivity|]. split; [left; split; reflexivity|]. cbn; lia.
    + split; [reflexivity|]. split; [left; split; [try_only|discriminate]|]. split; [right; left; exists [(300, 310); (200, 220)]; split; [try_only|split; [apply perm_swap|split; [constructor; [constructor; constructor|constructor; [cbn; lia|constructor]]|constructor; [cbn; lia|constructor; [cbn; lia|constructor]]]]]|].
      split; [split; [reflexivity|left; try_only]|]. split; [right; split; reflexivity|]. split; [right; split; reflexivity|]. split; [right; split; reflexivity|]. split; [left; split; reflexivity|]. cbn; lia.
    + split; [reflexivity|]. split; [right; left; split; [reflexivity|try_only]|]. split; [right; right; exists [AName [106]; ADeclLine false 21], [], [], 5, 50, true; repeat split; try reflexivity; lia|].
      split; [split; [reflexivity|left; try_only]|]. split; [right; split; reflexivity|]. split; [right; split; reflexivity|]. split; [right; split; reflexivity|]. split; [left; split; reflexivity|]. cbn; lia.
    + split; [reflexivity|]. split; [right; right; split; [reflexivity|split; reflexivity]|]. split; [right; right; exists [AAbstractOrigin true 70], [], [], 8, 200, true; repeat split; try reflexivity; lia|].
      split; [right; split; reflexivity|]. split; [right; split; reflexivity|]. split; [left; exists true, 70; split; [try_only|reflexivity]|]. split; [right; split; reflexivity|]. split; [left; split; reflexivity|]. cbn; lia.
Qed.
Ltac inn := repeat match goal with H : In _ _ |- _ => cbn in H | H : _ \/ _ |- _ => destruct H as [H|H] | H : False |- _ => destruct H | H : _ = ?x |- _ => subst x end.
Example good1 : good_forest 100 forest1.
Proof.
  assert (W : within (ranges ng) (ranges nf)). { intros r H. inn. exists (100, 150). cbn. split; [tauto|lia]. }
  assert (W2 : within (ranges nh) (ranges ng)). { intros r H. inn; exists (110, 120); cbn; (split; [tauto|lia]). }
  assert (LF : live 100 (nf, FCons ng (FCons nh FNil FNil) FNil)).
  { split; [reflexivity|]. split; [discriminate|]. split; [constructor; [cbn; lia|constructor]|]. split; [reflexivity|]. split; [intros q H; inn; cbn; lia|]. split; [exact W|]. split; [|split; [constructor|exact Logic.I]]. split; [reflexivity|]. split; [intros q H; inn; cbn; lia|]. split; [exact W2|]. split; [exact Logic.I|split; [constructor|exact Logic.I]]. }
  assert (LI : live 100 (ni, FNil)). { split; [reflexivity|]. split; [discriminate|]. split; [constructor; [cbn; lia|constructor; [cbn; lia|constructor]]|exact Logic.I]. }
  split; [right; split; [exact LF|]|split; [left|split; [left|split; [right; split; [exact LI|]|split; [left|exact Logic.I]]]]].
  - intros t H _. cbn in H. destruct H as [<-|[<-|[<-|[<-|[]]]]]; intros r r' Hr Hr'; cbn in Hr, Hr'; inn; cbn; lia.
  - split; [reflexivity|]. left. intros r [].
  - split; [reflexivity|]. left. intros r [].
  - intros t H L. cbn in H. destruct H as [<-|[]]. destruct L as (_ & _ & F & _). inversion F as [|? ? B _]; subst. cbn in B. lia.
  - split; [reflexivity|]. right. split; [exists (5, 55); cbn; split; [tauto|lia]|]. repeat constructor.
Qed.
Definition frames1 : list source :=
  [(Some [104], [47; 99; 47; 120], [109], 0, 7, 1); (Some [95; 103], [47; 99; 47; 100], [97], 9, 10, 4); (Some [102], [47; 99; 47; 100], [97], 3, 5, 0)].
(** The innermost frame is h (its declaration has no line), inlined in g, inlined in
    f. *)
Example C61_nonvacuous : reads_units [unit0 dies1] forest1 /\ NoDup (map n_offset (nodes forest1)) /\ good_forest 100 forest1 /\ stack_at 100 114 forest1 [nh; ng; nf] /\
  lookup 114 (lines0 114) = Ok (Some ([120], [109], 7, 1)) /\ frames forest1 ([120], [109], 7, 1) [nh; ng; nf] frames1 /\ stack_of 100 [unit0 dies1] 5 114 = Some (Ok frames1).
Proof.
  split; [exact reads1|]. split; [cbn; repeat (constructor; [cbn; lia|]); constructor|]. split; [exact good1|]. split; [|split; [vm_compute; reflexivity|split; [|vm_compute; reflexivity]]].
  apply (sa 100 114 forest1 (nf, FCons ng (FCons nh FNil FNil) FNil)); [left; reflexivity| |].
  - destruct good1 as ([D|(L & _)] & _); [|exact L]. exfalso. destruct D as (_ & [D|((r & Hr & B) & _)]); [specialize (D _ (or_introl eq_refl)); discriminate D|inn; cbn in B; lia].
  - cbn [fst snd]. apply (in_deeper 114 nf _ FNil [nh; ng]); [exists (100, 150); cbn; split; [tauto|lia]|]. apply (in_deeper 114 ng _ FNil [nh]); [exists (110, 120); cbn; split; [tauto|lia]|]. apply in_here; [exists (114, 115); cbn; split; [tauto|lia]|]. intros m [].
  - assert (FG : function_is forest1 ng [95; 103] 9).
    { apply (fi forest1 ng dg dg); [|apply or_ref; [discriminate|split; [cbn; tauto|reflexivity]]]. apply (de_origin forest1 ng dg dg); [left; reflexivity|reflexivity|discriminate|split; [cbn; tauto|reflexivity]|apply de_self; discriminate]. }
    assert (FH : function_is forest1 nh [104] 0).
    { apply (fi forest1 nh dh dh); [|apply or_ref; [discriminate|split; [cbn; tauto|reflexivity]]]. apply (de_origin forest1 nh dh dh); [left; reflexivity|reflexivity|discriminate|split; [cbn; tauto|reflexivity]|apply de_end; reflexivity]. }
    assert (FF : function_is forest1 nf [102] 3) by (apply (fi forest1 nf nf nf); [apply de_self; discriminate|apply or_self; reflexivity]).
    apply (fr forest1 ([120], [109], 7, 1) nh [ng; nf] [104] 0); [exact FH|]. apply (cf_call forest1 nh ng [nf] [95; 103] 9 [100] [97]); [reflexivity|exact FG|reflexivity|]. apply (cf_call forest1 ng nf [] [102] 3 [100] [97]); [reflexivity|exact FF|reflexivity|]. constructor. reflexivity.
Qed.

(** What goes wrong for entries that DWARF allows.
    A function inside another function (Fortran, nested functions of GNU C) has code outside
    of it: it is dropped. *)
Theorem C61_nested_function_refuted : exists us, stack_of 100 us 5 215 = Some (Ok [(None, [120], [109], 0, 7, 1)]) /\
  us = [unit0 [Die 20 TagSubprogram [AName [102]; ADeclLine false 3; ALowPc 100; AHighPc 50 true] [Die 40 TagSubprogram [AName [103]; ADeclLine false 4; ALowPc 210; AHighPc 10 true] []]]].
Proof. eexists. split; [|reflexivity]. vm_compute. reflexivity. Qed.
(** A call whose file has number 0 (allowed since version 5): a null pointer is used as
    the directory. *)
Theorem C61_call_file_zero_refuted : exists us, stack_of 100 us 5 115 = Some UB /\
  us = [unit0 [Die 20 TagSubprogram [AName [102]; ADeclLine false 3; ALowPc 100; AHighPc 50 true] [Die 31 TagInlined [AName [103]; ALowPc 110; AHighPc 10 true; ACallFile false 0; ACallLine false 5] []]]].
Proof. eexists. split; [|reflexivity]. vm_compute. reflexivity. Qed.
(** The line of a declaration that is written as a constant of the abbreviation is
    lost. *)
Theorem C61_implicit_line_refuted : exists us, stack_of 100 us 5 115 = Some (Ok [(Some [102], [47; 99; 47; 120], [109], 0, 7, 1)]) /\
  us = [unit0 [Die 20 TagSubprogram [AName [102]; ADeclLine true 3; ALowPc 100; AHighPc 50 true] []]].
Proof. eexists. split; [|reflexivity]. vm_compute. reflexivity. Qed.
(** An inlined call whose range spans two adjacent ranges of the function is dropped:
    the frame of the call is missing. *)
Theorem C61_spanning_call_refuted : exists us, stack_of 100 us 5 115 = Some (Ok [(Some [102], [47; 99; 47; 120], [109], 3, 7, 1)]) /\
  us = [unit0 [Die 20 TagSubprogram [AName [102]; ADeclLine false 3; ARanges [(100, 115); (115, 150)]] [Die 31 TagInlined [AName [103]; ALowPc 110; AHighPc 10 true; ACallFile false 1; ACallLine false 5] []]]].
Proof. eexists. split; [|reflexivity]. vm_compute. reflexivity. Qed.
(** The length of a function written before its address is taken for the end. *)
Theorem C61_high_first_refuted : exists us, stack_of 100 us 5 140 = Some (Ok [(None, [120], [109], 0, 7, 1)]) /\
  us = [unit0 [Die 20 TagSubprogram [AName [102]; ADeclLine false 3; AHighPc 50 true; ALowPc 100] []]].
Proof. eexists. split; [|reflexivity]. vm_compute. reflexivity. Qed.
(** Entries that refer to each other: the search for the declaration does not end. *)
Theorem C61_cyclic_refuted : exists us, (forall fuel, stack_of 100 us fuel 140 = None) /\
  us = [unit0 [Die 20 TagSubprogram [AAbstractOrigin true 60; ALowPc 100; AHighPc 50 true] []; Die 60 TagSubprogram [ASpecification true 20] []]].
Proof.
  eexists. split; [|reflexivity]. intros fuel. unfold stack_of. set (st := read_dies _ _). vm_compute in st. subst st. cbv iota beta. set (m := PopulateSubprogramsByAddress _ _). vm_compute in m. subst m. cbv iota beta.
  unfold GetInlineStack. set (lk := lookup _ _). vm_compute in lk. subst lk. cbn [obind2]. set (g := GetSubprogramForAddress _ _). vm_compute in g. subst g. cbv iota beta. unfold function_of.
  set (st := {| objs := _ |}). assert (G : forall fuel, GetDeclaration st fuel O = None /\ GetDeclaration st fuel 1%nat = None).
  { clear fuel. induction fuel as [|k (A & B)]; [split; reflexivity|]. split.
    - change (GetDeclaration st (S k) O) with (GetDeclaration st k 1%nat). exact B.
    - change (GetDeclaration st (S k) 1%nat) with (GetDeclaration st k O). exact A. }
  rewrite (proj1 (G fuel)). reflexivity.
Qed.

Print Assumptions C61_stack.
Print Assumptions C61_nowhere.
Print Assumptions C61_no_position.
Print Assumptions C61_functions_disjoint.
Print Assumptions C61_merge.
Print Assumptions C61_nested_function_refuted.
Print Assumptions C61_call_file_zero_refuted.
Print Assumptions C61_implicit_line_refuted.
Print Assumptions C61_spanning_call_refuted.
Print Assumptions C61_high_first_refuted.
Print Assumptions C61_cyclic_refuted.
