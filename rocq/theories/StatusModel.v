(** Model of status_provider.{h,cc}: progress of nested jobs. *)
From Verif Require Import Base.
From Coq Require Import Reals.
From Flocq Require Import Core.

(** status_provider.h:28-50 DefaultStatusProvider and 63-115
    MultiStatusProvider (job name, weighted sub-providers in the order in which
    they were added). *)
Inductive provider : Type :=
| Default (job : list Z) (progress : Z)
| Multi (job : list Z) (subs : list (Z * provider)).

(** status_provider.h:42 and 77-79 / 101-109: IsDone; a MultiStatusProvider is
    done when FindWorkingStatusProvider finds nothing. *)
Fixpoint IsDone (p : provider) : bool :=
  match p with
  | Default _ x => 100 <=? x
  | Multi _ subs => forallb (fun '(_, q) => IsDone q) subs
  end.

(** status_provider.h:44-45, 81-83: SetDone. *)
Fixpoint SetDone (p : provider) : provider :=
  match p with
  | Default j _ => Default j 100
  | Multi j subs => Multi j (map (fun '(w, q) => (w, SetDone q)) subs)
  end.

(** status_provider.h:87-91: AddStatusProvider keeps total_weight_ equal to the
    sum of the weights (int overflow is excluded by the theorems). *)
Definition total_weight (subs : list (Z * provider)) : Z :=
  fold_left (fun a '(w, _) => a + w) subs 0.

(** IEEE-754 binary32 rounding to nearest even (Flocq).  The quantities here
    are far below the overflow threshold. *)
Definition rnd32 (x : R) : R := round radix2 (FLT_exp (-149) 24) ZnearestE x.

(** status_provider.cc:26-29: int operands are converted to float, every float
    operation rounds, the result is truncated to int.  (No excess precision:
    FLT_EVAL_METHOD = 0.) *)
Definition scaled_progress (finished w p total : Z) : Z :=
  let wf := rnd32 (IZR w) in
  let part := rnd32 (rnd32 (wf * rnd32 (IZR p)) / IZR 100) in
  let sum := rnd32 (rnd32 (IZR finished) + part) in
  Ztrunc (rnd32 (rnd32 (sum * IZR 100) / rnd32 (IZR total))).

(** status_provider.cc:16-30 MultiStatusProvider::GetProgress (and
    status_provider.h:41). *)
Fixpoint GetProgress (p : provider) : Z :=
  match p with
  | Default _ x => x
  | Multi _ subs =>
      if total_weight subs =? 0 then 100
      else
        (fix walk (finished : Z) (l : list (Z * provider)) : Z :=
           match l with
           | [] => 100
           | (w, q) :: l' =>
               if IsDone q then walk (finished + w) l'
               else scaled_progress finished w (GetProgress q) (total_weight subs)
           end) 0 subs
  end.

(** status_provider.cc:8-13 and status_provider.h:40 GetJob (the first working
    job is appended after " - "). *)
Fixpoint GetJob (p : provider) : list Z :=
  match p with
  | Default j _ => j
  | Multi j subs =>
      (fix walk (l : list (Z * provider)) : list Z :=
         match l with
         | [] => j
         | (_, q) :: l' => if IsDone q then walk l' else j ++ [32; 45; 32] ++ GetJob q
         end) subs
  end.
