(** Shared vocabulary of the model (no code of /repo is modelled here):
    outcomes, machine words, byte lists, association lists. *)
From Coq Require Export List ZArith Lia Bool Arith.
From Coq Require Export ZifyBool ZifyNat.
Export ListNotations.
Open Scope Z_scope.

(** Result of running a piece of code: a value, a failed CHECK / LOG(FATAL)
    (the process aborts), or undefined behaviour / uncaught exception. *)
Inductive outcome (A : Type) : Type :=
| Ok (a : A)
| Abort
| UB.
Arguments Ok {A} a.
Arguments Abort {A}.
Arguments UB {A}.

Definition obind {A B} (x : outcome A) (f : A -> outcome B) : outcome B :=
  match x with Ok a => f a | Abort => Abort | UB => UB end.

Notation "'let!' x ':=' a 'in' b" := (obind a (fun x => b))
  (at level 200, x name, a at level 100, b at level 200).
Notation "'let!' ' p ':=' a 'in' b" := (obind a (fun p => b))
  (at level 200, p strict pattern, a at level 100, b at level 200).

(** Machine words. *)
Definition w32 : Z := 4294967296.
Definition w64 : Z := 18446744073709551616.
Definition u16 (x : Z) : Z := x mod 65536.
Definition u32 (x : Z) : Z := x mod w32.
Definition u64 (x : Z) : Z := x mod w64.

Definition is_byte (b : Z) : Prop := 0 <= b < 256.
Definition zlen {A} (l : list A) : Z := Z.of_nat (length l).

(** Association lists standing for finite maps; the first binding of a key
    counts. *)
Section Assoc.
  Context {K V : Type} (eqb : K -> K -> bool).
  Fixpoint aget (k : K) (m : list (K * V)) : option V :=
    match m with
    | [] => None
    | (k', v) :: m' => if eqb k k' then Some v else aget k m'
    end.
  (** m[k] = v (in place if present, appended otherwise). *)
  Fixpoint aset (k : K) (v : V) (m : list (K * V)) : list (K * V) :=
    match m with
    | [] => [(k, v)]
    | (k', v') :: m' => if eqb k k' then (k', v) :: m' else (k', v') :: aset k v m'
    end.
  Fixpoint aremove (k : K) (m : list (K * V)) : list (K * V) :=
    match m with
    | [] => []
    | (k', v') :: m' => if eqb k k' then aremove k m' else (k', v') :: aremove k m'
    end.
  Definition akeys (m : list (K * V)) : list K := map fst m.
End Assoc.

Lemma zlen_nonneg {A} (l : list A) : 0 <= zlen l.
Proof. unfold zlen; lia. Qed.
Lemma zlen_app {A} (l k : list A) : zlen (l ++ k) = zlen l + zlen k.
Proof. unfold zlen; rewrite app_length; lia. Qed.
Lemma zlen_cons {A} (x : A) l : zlen (x :: l) = 1 + zlen l.
Proof. unfold zlen; cbn [length]; lia. Qed.
Lemma zlen_nil {A} : zlen (@nil A) = 0.
Proof. reflexivity. Qed.

Section AssocLemmas.
  Context {K V : Type} (eqb : K -> K -> bool).
  Hypothesis eqb_spec : forall a b, reflect (a = b) (eqb a b).

  Lemma aget_aset_same k (v : V) m : aget eqb k (aset eqb k v m) = Some v.
  Proof.
    induction m as [|[k' v'] m IH]; cbn [aset aget].
    - destruct (eqb_spec k k); congruence.
    - destruct (eqb_spec k k') as [E|E]; cbn [aget].
      + destruct (eqb_spec k k'); congruence.
      + destruct (eqb_spec k k'); [congruence|exact IH].
  Qed.

  Lemma aget_aset_other k k2 (v : V) m :
    k2 <> k -> aget eqb k2 (aset eqb k v m) = aget eqb k2 m.
  Proof.
    intros Hne. induction m as [|[k' v'] m IH]; cbn [aset aget].
    - destruct (eqb_spec k2 k); congruence.
    - destruct (eqb_spec k k') as [E|E]; cbn [aget].
      + subst k'. destruct (eqb_spec k2 k); [congruence|reflexivity].
      + destruct (eqb_spec k2 k'); [reflexivity|exact IH].
  Qed.

  Lemma aget_aset k k2 (v : V) m :
    aget eqb k2 (aset eqb k v m) = if eqb k2 k then Some v else aget eqb k2 m.
  Proof.
    destruct (eqb_spec k2 k) as [->|H];
      [apply aget_aset_same | apply aget_aset_other; exact H].
  Qed.

  Lemma aget_In k (v : V) m : aget eqb k m = Some v -> In (k, v) m.
  Proof.
    induction m as [|[k' v'] m IH]; cbn [aget]; [discriminate|].
    destruct (eqb_spec k k') as [->|H]; intros E.
    - injection E as ->. left; reflexivity.
    - right; auto.
  Qed.

  Lemma aget_None_iff k (m : list (K * V)) :
    aget eqb k m = None <-> ~ In k (akeys m).
  Proof.
    induction m as [|[k' v'] m IH]; cbn [aget akeys map In fst].
    - tauto.
    - destruct (eqb_spec k k') as [->|H].
      + split; [discriminate|]. intros Hn; exfalso; apply Hn; left; reflexivity.
      + rewrite IH. unfold akeys. intuition congruence.
  Qed.

  Lemma aget_NoDup_In k (v : V) m :
    NoDup (akeys m) -> In (k, v) m -> aget eqb k m = Some v.
  Proof.
    induction m as [|[k' v'] m IH]; cbn [aget akeys map fst]; intros Hn Hi.
    - destruct Hi.
    - inversion Hn as [|? ? Hnot Hn']; subst.
      destruct Hi as [E|Hi].
      + injection E as -> ->. destruct (eqb_spec k k); congruence.
      + destruct (eqb_spec k k') as [->|H].
        * exfalso; apply Hnot. apply (in_map fst) in Hi. exact Hi.
        * auto.
  Qed.

  Lemma akeys_aset k (v : V) m :
    akeys (aset eqb k v m) = if existsb (eqb k) (akeys m) then akeys m else akeys m ++ [k].
  Proof.
    induction m as [|[k' v'] m IH]; cbn [aset akeys map existsb fst app]; [reflexivity|].
    destruct (eqb_spec k k') as [->|H]; cbn [orb]; [reflexivity|].
    cbn [map fst]. change (map fst (aset eqb k v m)) with (akeys (aset eqb k v m)).
    rewrite IH. unfold akeys. destruct (existsb (eqb k) (map fst m)); reflexivity.
  Qed.

  Lemma existsb_eqb_In k l : existsb (eqb k) l = true <-> In k l.
  Proof.
    rewrite existsb_exists. split.
    - intros [x [Hi He]]. destruct (eqb_spec k x); congruence.
    - intros Hi. exists k. split; [exact Hi|]. destruct (eqb_spec k k); congruence.
  Qed.

  Lemma NoDup_snoc {A} (l : list A) x : NoDup l -> ~ In x l -> NoDup (l ++ [x]).
  Proof.
    induction l as [|a l IH]; cbn [app]; intros Hn Hx.
    - constructor; [intros []|constructor].
    - inversion Hn; subst. constructor.
      + rewrite in_app_iff. cbn [In] in *. intuition congruence.
      + apply IH; [assumption|]. cbn [In] in Hx. tauto.
  Qed.

  Lemma NoDup_akeys_aset k (v : V) m : NoDup (akeys m) -> NoDup (akeys (aset eqb k v m)).
  Proof.
    intros Hn. rewrite akeys_aset. destruct (existsb (eqb k) (akeys m)) eqn:E; [exact Hn|].
    apply NoDup_snoc; [exact Hn|]. intros Hi.
    apply existsb_eqb_In in Hi. congruence.
  Qed.

  Lemma In_akeys_aset k k2 (v : V) m :
    In k2 (akeys (aset eqb k v m)) <-> k2 = k \/ In k2 (akeys m).
  Proof.
    rewrite akeys_aset. destruct (existsb (eqb k) (akeys m)) eqn:E.
    - apply existsb_eqb_In in E. intuition congruence.
    - rewrite in_app_iff. cbn [In]. intuition congruence.
  Qed.
End AssocLemmas.

Lemma Z_eqb_reflect : forall a b : Z, reflect (a = b) (Z.eqb a b).
Proof. intros; apply Z.eqb_spec. Qed.

Lemma lor_add_disjoint a b k :
  0 <= a < 2 ^ k -> 0 <= k -> Z.lor a (Z.shiftl b k) = a + b * 2 ^ k.
Proof.
  intros Ha Hk. rewrite Z.shiftl_mul_pow2 by lia.
  assert (Hand : Z.land a (b * 2 ^ k) = 0).
  { apply Z.bits_inj'. intros n Hn. rewrite Z.land_spec, Z.bits_0.
    destruct (Z_lt_ge_dec n k) as [Hlt|Hge].
    - rewrite Z.mul_pow2_bits_low by lia. apply andb_false_r.
    - assert (Hz : Z.testbit a n = false).
      { destruct (Z.eq_dec a 0) as [->|Hne]; [apply Z.bits_0|].
        apply Z.bits_above_log2; [lia|].
        apply Z.log2_lt_pow2; [lia|]. apply Z.lt_le_trans with (2 ^ k); [lia|].
        apply Z.pow_le_mono_r; lia. }
      rewrite Hz. reflexivity. }
  rewrite Z.add_nocarry_lxor, Z.lxor_lor by exact Hand. reflexivity.
Qed.

