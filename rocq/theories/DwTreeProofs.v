(** Stacks. *)
From Coq Require Import Sorted Permutation.
From Verif Require Import Base ISort RangeMapModel RangeMapProofs DwLineModel DwTreeModel DwTreeSpec DwTreeWalk DwTreeBad DwTreeMap DwTreeGood DwTreePop.

Lemma nodes_fapp a b : nodes (fapp a b) = nodes a ++ nodes b.
Proof. induction a as [|n k _ r IHr]; cbn [fapp nodes]; [reflexivity|]. rewrite IHr, <- app_comm_cons, app_assoc. reflexivity. Qed.
Lemma has_ranges_sorted attrs rs : has_ranges attrs rs -> sorted rs.
Proof. intros [(_ & ->)|[(l & _ & _ & S & _)|(l1 & l2 & l3 & lo & h & off & _ & _ & -> & _)]]; [constructor|exact S|constructor; constructor]. Qed.
Lemma reads_sorted co names comp l f : reads co names comp l f -> Forall (fun n => sorted (ranges n)) (nodes f).
Proof.
  induction 1 as [|off attrs kids l i k r MN _ IHk _ IHr|off attrs kids l i k r MN _ IHk _ IHr|off attrs kids l k r _ IHk _ IHr]; cbn [nodes].
  - constructor.
  - constructor; [eapply has_ranges_sorted; apply MN|apply Forall_app; split; assumption].
  - constructor; [eapply has_ranges_sorted; apply MN|apply Forall_app; split; assumption].
  - rewrite nodes_fapp. apply Forall_app. split; assumption.
Qed.
Lemma units_sorted us f : reads_units us f -> Forall (fun n => sorted (ranges n)) (nodes f).
Proof.
  induction 1 as [|u us f g RU _ IH]; [constructor|]. rewrite nodes_fapp. apply Forall_app. split; [|exact IH]. inversion RU; subst. eapply reads_sorted; eassumption.
Qed.

(** offsets *)
Lemma offs_keys f : forall base, map fst (offs base f) = map n_offset (nodes f).
Proof. induction f as [|n k IHk r IHr]; intros base; cbn [offs nodes map fst]; [reflexivity|]. rewrite !map_app, IHk, IHr. reflexivity. Qed.
Lemma offs_sits f : forall base i n, sits base f i n -> In (n_offset n, i) (offs base f).
Proof. induction f as [|m k IHk r IHr]; intros base i n H; cbn [sits offs] in *; [destruct H|]. destruct H as [(-> & ->)|[H|H]]; [left; reflexivity|right; apply in_or_app; left; apply IHk; exact H|right; apply in_or_app; right; apply IHr; exact H]. Qed.
Lemma insert_new_get {V} o o' (v : V) m : aget Z.eqb o (insert_new o' v m) = match aget Z.eqb o m with Some x => Some x | None => if o =? o' then Some v else None end.
Proof.
  unfold insert_new. destruct (aget Z.eqb o' m) as [y|] eqn:E.
  - destruct (aget Z.eqb o m) eqn:E2; [reflexivity|]. destruct (Z.eqb_spec o o') as [->|]; [congruence|reflexivity].
  - rewrite (aget_aset Z.eqb Z.eqb_spec). destruct (Z.eqb_spec o o') as [->|]; [rewrite E; reflexivity|]. destruct (aget Z.eqb o m); reflexivity.
Qed.
Lemma add_offs_get l : forall m o i, NoDup (map fst l) -> In (o, i) l -> aget Z.eqb o m = None -> aget Z.eqb o (add_offs l m) = Some i.
Proof.
  assert (K : forall l m o i, aget Z.eqb o m = Some i -> aget Z.eqb o (add_offs l m) = Some i).
  { clear. induction l as [|[o1 i1] l IH]; intros m o i H; [exact H|]. change (add_offs ((o1, i1) :: l) m) with (add_offs l (insert_new o1 i1 m)). apply IH. rewrite insert_new_get, H. reflexivity. }
  induction l as [|[o1 i1] l IH]; intros m o i ND H N; [destruct H|]. change (add_offs ((o1, i1) :: l) m) with (add_offs l (insert_new o1 i1 m)). cbn [map fst] in ND. inversion ND as [|? ? N1 N2]; subst. destruct H as [H|H].
  - injection H as -> ->. apply K. rewrite insert_new_get, N, Z.eqb_refl. reflexivity.
  - apply IH; [exact N2|exact H|]. rewrite insert_new_get, N. destruct (Z.eqb_spec o o1) as [->|]; [|reflexivity]. exfalso. apply N1. apply (in_map fst) in H. exact H.
Qed.

Section Stack.
Context (st : state) (f : forest) (PL : placed st None None O f) (BO : by_offset st = add_offs (offs O f) []) (ND : NoDup (map n_offset (nodes f))).
Definition is_node (i : nat) (n : node) : Prop := exists u p, obj i st = sub_of u p n.
Lemma found o n : at_offset f o n -> exists i, find_offset st o = Ok i /\ is_node i n.
Proof.
  intros (H & <-). destruct (nodes_sit f O n H) as (i & S). exists i. split; [|apply (placed_sits st f None None O i n PL S)]. unfold find_offset. rewrite BO, (add_offs_get (offs O f) [] (n_offset n) i); [reflexivity|rewrite offs_keys; exact ND|apply offs_sits; exact S|reflexivity].
Qed.
Lemma declaration n d : declared f n d -> forall i, is_node i n -> exists j F, is_node j d /\ forall fuel, (F <= fuel)%nat -> GetDeclaration st fuel i = Some (Ok j).
Proof.
  induction 1 as [n N1 N2|n N1 N2|n m d C N1 AT _ IH|n m d C N1 N2 AT _ IH]; intros i IN; assert (IN' := IN); destruct IN' as (u & p & E).
  - exists i, 1%nat. split; [exact IN|]. intros [|k] L; [lia|]. cbn [GetDeclaration]. rewrite E. cbn [sub_of s_name s_line]. destruct (i_name (n_info n)); [congruence|]. destruct (Z.eqb_spec (i_line (n_info n)) 0); [congruence|]. reflexivity.
  - exists i, 1%nat. split; [exact IN|]. intros [|k] L; [lia|]. cbn [GetDeclaration]. rewrite E. cbn [sub_of s_name s_line s_spec s_origin]. rewrite N1, N2. cbn. destruct (match i_name (n_info n) with [] => true | _ => false end || (i_line (n_info n) =? 0)); reflexivity.
  - destruct (found _ _ AT) as (j & Fj & Nj). destruct (IH j Nj) as (q & F & Nq & G). exists q, (S F). split; [exact Nq|]. intros [|k] L; [lia|]. cbn [GetDeclaration]. rewrite E. cbn [sub_of s_name s_line s_spec s_origin].
    assert (T : (match i_name (n_info n) with [] => true | _ => false end) || (i_line (n_info n) =? 0) = true) by (destruct C as [-> | ->]; [reflexivity|apply orb_true_r]). rewrite T. destruct (Z.eqb_spec (i_spec (n_info n)) 0); [congruence|]. cbn [negb]. rewrite Fj. apply G. lia.
  - destruct (found _ _ AT) as (j & Fj & Nj). destruct (IH j Nj) as (q & F & Nq & G). exists q, (S F). split; [exact Nq|]. intros [|k] L; [lia|]. cbn [GetDeclaration]. rewrite E. cbn [sub_of s_name s_line s_spec s_origin].
    assert (T : (match i_name (n_info n) with [] => true | _ => false end) || (i_line (n_info n) =? 0) = true) by (destruct C as [-> | ->]; [reflexivity|apply orb_true_r]). rewrite T, N1. change (negb (0 =? 0)) with false. cbv iota. destruct (Z.eqb_spec (i_origin (n_info n)) 0); [congruence|]. cbn [negb]. rewrite Fj. apply G. lia.
Qed.
Lemma origin_of n o i : origin f n o -> is_node i n -> exists j, GetAbstractOrigin st i = Ok j /\ is_node j o.
Proof.
  intros [n' N|n' m N AT] IN; assert (IN' := IN); destruct IN' as (u & p & E); unfold GetAbstractOrigin; rewrite E; cbn [sub_of s_origin].
  - rewrite N. exists i. split; [reflexivity|exact IN].
  - destruct (Z.eqb_spec (i_origin (n_info n')) 0); [congruence|]. apply found. exact AT.
Qed.
Lemma full_eq comp dir : full_dir (Some comp) dir = full comp dir.
Proof.
  unfold full_dir, full, path_join, is_absolute. assert (G : match comp with [] => dir | _ :: _ => if last comp 0 =? 47 then comp ++ dir else comp ++ [47] ++ dir end = match rev comp with [] => dir | 47 :: _ => comp ++ dir | _ => comp ++ 47 :: dir end).
  { destruct comp as [|c l]; [reflexivity|]. destruct (@exists_last _ (c :: l)) as (l' & y & E); [discriminate|]. rewrite E, rev_app_distr, last_last. cbn [rev app]. destruct (Z.eqb_spec y 47) as [->|NE]; [destruct l'; reflexivity|]. destruct y as [|q|q]; [destruct l'; reflexivity| |destruct l'; reflexivity].
    assert (X : match q with 47%positive => (l' ++ [Zpos q]) ++ dir | _ => (l' ++ [Zpos q]) ++ 47 :: dir end = (l' ++ [Zpos q]) ++ 47 :: dir) by (clear - NE; do 6 (destruct q as [q|q|]; try reflexivity); congruence).
    destruct l' as [|a l']; cbn [app]; symmetry; exact X. }
  destruct dir as [|d dir]; [exact G|]. destruct d as [|q|q]; [exact G| |exact G]. do 6 (destruct q as [q|q|]; try exact G). reflexivity.
Qed.
Lemma function_read n nm line i : function_is f n nm line -> is_node i n -> exists F, forall fuel, (F <= fuel)%nat -> function_of st fuel i = Some (Ok (nm, line, Some (n_comp n))).
Proof.
  intros [d o D OR] IN. destruct (declaration n d D i IN) as (jd & F & (ud & pd & Ed) & GD). destruct (origin_of n o i OR IN) as (jo & GO & (uo & po & Eo)). exists F. intros fuel L. unfold function_of. rewrite (GD fuel L). cbn [obind2]. rewrite GO. cbn [obind2]. destruct IN as (u & p & E). rewrite E, Ed, Eo. reflexivity.
Qed.
Fixpoint chain (i : nat) (l : list node) : Prop :=
  match l with [] => False | n :: l' => is_node i n /\ match l' with [] => True | _ => exists j, s_parent (obj i st) = Some j /\ chain j l' end end.
Lemma callers_read l fs : call_frames f l fs -> forall i, chain i l -> exists F, forall fuel, (F <= fuel)%nat -> callers st fuel i = Some (Ok fs).
Proof.
  induction 1 as [n NI|c n l nm line dir file fs IL FI CALL CF IH]; intros i CH.
  - destruct CH as ((u & p & E) & _). exists 1%nat. intros [|k] L; [lia|]. cbn [callers]. rewrite E. cbn [sub_of s_inlined]. rewrite NI. reflexivity.
  - destruct CH as ((u & p & E) & j & EP & CH). destruct (IH j CH) as (F1 & G1). assert (Nj : is_node j n) by (destruct l; apply CH). destruct FI as [d o D OR]. destruct (declaration n d D j Nj) as (jd & F2 & (ud & pd & Ed) & GD). destruct (origin_of n o j OR Nj) as (jo & GO & (uo & po & Eo)).
    exists (S (F1 + F2)). intros [|k] L; [lia|]. cbn [callers]. rewrite EP, E. cbn [sub_of s_inlined s_dir s_file s_comp s_line s_discr]. rewrite IL, CALL. cbn [option_map fst snd]. rewrite (GD (S k) ltac:(lia)). cbn [obind2]. rewrite GO. cbn [obind2]. rewrite (G1 k ltac:(lia)). cbn [obind2]. rewrite Ed, Eo, full_eq. cbn [sub_of s_name s_line]. reflexivity.
Qed.

(** where an address is *)
Lemma inner_none k x : forall base, (forall m, In m (tops k) -> ~ covers x m) -> inner base k x = None.
Proof.
  induction k as [|n k _ r IHr]; intros base H; cbn [inner]; [reflexivity|]. destruct (cov (ranges n) x) eqn:C; [exfalso; apply (H n); [left; reflexivity|apply cov_covers; exact C]|]. apply IHr. intros m Hm. apply H. right. exact Hm.
Qed.
Lemma inside_tops x k p : inside x k p -> exists m, In m (tops k) /\ covers x m.
Proof. induction 1 as [n k r C N|n k r p C _ _|n k r p _ (m & A & B)]; [exists n; split; [left; reflexivity|exact C]|exists n; split; [left; reflexivity|exact C]|exists m; split; [right; exact A|exact B]]. Qed.
Lemma disjoint_covers x n m : disjoint (ranges n) (ranges m) -> covers x n -> covers x m -> False.
Proof. intros D (r & Hr & B) (q & Hq & C). destruct (D r q Hr Hq); lia. Qed.
Lemma inside_inner x k p : inside x k p -> forall ou par base outer, placed st ou par base k -> nested outer k ->
  exists i, inner base k x = Some i /\ forall rest, (rest = [] \/ exists j, par = Some j /\ chain j rest) -> chain i (p ++ rest).
Proof.
  induction 1 as [n k r C N|n k r p C _ IH|n k r p IN IH]; intros ou par base outer P NS; cbn [placed nested inner] in *; destruct P as (P1 & P2 & P3); destruct NS as (A & B & W & D & E & F).
  - assert (CV : cov (ranges n) x = true) by (apply cov_covers; exact C). rewrite CV, (inner_none k x (S base) N). exists base. split; [reflexivity|]. intros rest HR. cbn [app chain]. split; [eexists _, _; exact P1|]. destruct rest as [|m rest]; [exact Logic.I|]. destruct HR as [HR|(j & -> & CH)]; [discriminate HR|]. exists j. rewrite P1. split; [reflexivity|exact CH].
  - assert (CV : cov (ranges n) x = true) by (apply cov_covers; exact C). rewrite CV. destruct (IH _ _ _ _ P2 D) as (i & EI & CH). rewrite EI. exists i. split; [reflexivity|]. intros rest HR. rewrite <- app_assoc. cbn [app]. apply CH. right. exists base. split; [reflexivity|]. cbn [chain]. split; [eexists _, _; exact P1|]. destruct rest as [|m rest]; [exact Logic.I|]. destruct HR as [HR|(j & -> & CJ)]; [discriminate HR|]. exists j. rewrite P1. split; [reflexivity|exact CJ].
  - destruct (cov (ranges n) x) eqn:CV.
    + exfalso. apply cov_covers in CV. destruct (inside_tops x r p IN) as (m & Hm & Cm). rewrite Forall_forall in E. exact (disjoint_covers x n m (E m Hm) CV Cm).
    + apply (IH _ _ _ _ P3 F).
Qed.
Lemma top_at vaddr x g : good_forest vaddr g -> forall base n k, placed st None None base g -> In (n, k) (trees g) -> live vaddr (n, k) -> covers x n ->
  exists b u, obj b st = sub_of u None n /\ placed st (Some u) (Some b) (S b) k /\ topinner vaddr base g x = match inner (S b) k x with Some i => Some i | None => Some b end.
Proof.
  induction g as [|m k' _ r IHr]; intros G base n k P H L C; cbn [good_forest placed trees topinner] in *; [destruct H|]. destruct G as (G1 & G2). destruct P as (P1 & P2 & P3). destruct H as [H|H].
  - injection H as -> ->. rewrite (islive_live vaddr n k L). assert (CV : cov (ranges n) x = true) by (apply cov_covers; exact C). rewrite CV. cbn [andb]. exists base, (used_of None n). auto.
  - destruct (IHr G2 _ n k P3 H L C) as (b & u & E & PK & T). exists b, u. split; [exact E|]. split; [exact PK|]. destruct G1 as [DE|(LI & DJ)].
    + rewrite (islive_dead vaddr m k' DE). exact T.
    + destruct (cov (ranges m) x) eqn:CV; [|rewrite andb_false_r; exact T]. exfalso. apply cov_covers in CV. exact (disjoint_covers x m n (DJ (n, k) H L) CV C).
Qed.
Lemma stack_found vaddr x p : good_forest vaddr f -> stack_at vaddr x f p -> exists i, topinner vaddr O f x = Some i /\ chain i p.
Proof.
  intros G [[n k] path IT L IN]. cbn [fst snd] in IN. assert (C : covers x n). { destruct (inside_tops _ _ _ IN) as (m & [<-|[]] & C). exact C. }
  destruct (top_at vaddr x f G O n k PL IT L C) as (b & u & E & PK & T). destruct L as (_ & _ & _ & N). cbn [fst snd] in N. inversion IN as [n' k' r' C' NO|n' k' r' p' C' ID|n' k' r' p' ID]; subst.
  - rewrite (inner_none k x (S b) NO) in T. exists b. split; [exact T|]. cbn [chain]. split; [eexists _, _; exact E|exact Logic.I].
  - destruct (inside_inner x k p' ID _ _ _ _ PK N) as (i & EI & CH). rewrite EI in T. exists i. split; [exact T|]. apply CH. right. exists b. split; [reflexivity|]. cbn [chain]. split; [eexists _, _; exact E|exact Logic.I].
  - inversion ID.
Qed.
Lemma nowhere_found vaddr x g : forall base, good_forest vaddr g -> nowhere vaddr x g -> topinner vaddr base g x = None.
Proof.
  induction g as [|m k' _ r IHr]; intros base G N; cbn [topinner good_forest] in *; [reflexivity|]. destruct G as (G1 & G2). destruct (islive vaddr m && cov (ranges m) x) eqn:E.
  - exfalso. apply andb_true_iff in E. destruct E as (E1 & E2). destruct G1 as [DE|(LI & _)]; [rewrite (islive_dead vaddr m k' DE) in E1; discriminate E1|]. apply (N (m, k')); [left; reflexivity|exact LI|apply cov_covers; exact E2].
  - apply IHr; [exact G2|]. intros t Ht. apply N. right. exact Ht.
Qed.
End Stack.
