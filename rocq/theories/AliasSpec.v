(** What it means for the arrays a program holds to be snapshots. Only programs (lists of statements), the arrays they
    are given and the contents of these arrays are mentioned. *)
From Coq Require Import List Bool Arith.
Import ListNotations.
From Verif Require Import AliasModel.

Section Spec.
  Context {V : Type}.
  Variable L : lib V.

  (** Statement [p] gives the caller array [a] as its [j]-th array. *)
  Definition gives (w : world V) (p : op V) (j a : nat) : Prop :=
    exists l, snd (step L w p) = Arrays l /\ nth_error l j = Some a.

  Definition succeeds (w : world V) (p : op V) : bool :=
    match snd (step L w p) with Raised => false | _ => true end.

  (** Whatever the program goes on to do, array [a] keeps the value it has now. *)
  Definition permanent (w : world V) (a : nat) : Prop :=
    forall ps, value (run L w ps) a = value w a.

  (** [p] is a successful accumulation into object [o] without reset; [p] sorts list [o]. *)
  Definition accumulates (o : nat) (p : op V) : Prop :=
    exists ins nl, p = AccCompute o false ins nl true.
  Definition sorts (o : nat) (p : op V) : Prop := exists k, p = NLSort o k.
  Definition assigns (a : nat) (p : op V) : Prop := exists v, p = UserWrite a v.

  (** What each successful compute call of object [o] added since the last reset, in the program [ps] run from [w]:
      the values its input arrays had when it was called. *)
  Fixpoint added (w : world V) (ps : list (op V)) (o : nat) (h : list (list V)) : list (list V) :=
    match ps with
    | [] => h
    | p :: ps' =>
        added (fst (step L w p)) ps' o
          (match p with
           | AccCompute o' reset ins nl _ =>
               if Nat.eqb o' o
               then (if reset then [] else h) ++
                    (if succeeds w p then [contents (mem w) ins ++ nl_contents w nl] else [])
               else h
           | _ => h
           end)
    end.
End Spec.
