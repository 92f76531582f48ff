(** Histograms of unit weights (RDF, PMFT, bond order): the counters after any history, in terms of numbers of samples. *)
From Verif Require Export HistSpec.
From Verif Require Import HistProofs HistProofs2 HistProps ParProofs.
From Coq Require Import Lia ZArith.
Local Open Scope Z_scope.

(** One frame: the points of axis space that each iteration contributes, the execution of the loop, and the data kept from the frame. *)
Record cin (F : Type) := CI { ci_n : nat; ci_pts : nat -> list (list R); ci_ev : list (nat * nat); ci_data : F }.
Arguments CI {F}. Arguments ci_n {F}. Arguments ci_pts {F}. Arguments ci_ev {F}. Arguments ci_data {F}.
Inductive cop (F : Type) := CCompute (reset : bool) (f : cin F) | CRead (ev : list (nat * nat)).
Arguments CCompute {F}. Arguments CRead {F}.
Section count.
  Context {F : Type}.
  Definition ci_all (f : cin F) : list (list R) := flat_map (ci_pts f) (range 0 (ci_n f)).
  Definition ci_ok (axes : list axis) (f : cin F) : Prop :=
    execution 0 (ci_n f) (ci_ev f) /\ forall i p, In p (ci_pts f i) -> length p = length axes.
  Definition cframe (f : cin F) : frame U32 F := Frame (ci_n f) (fun i => map (fun p => (p, u32 1)) (ci_pts f i)) (ci_ev f) (ci_data f).
  Definition cop_hop (o : cop F) : hop U32 F := match o with CCompute r f => Compute r (cframe f) | CRead ev => Read ev end.
  Definition cop_ok (axes : list axis) (o : cop F) : Prop :=
    match o with CCompute _ f => ci_ok axes f | CRead ev => execution 0 (Z.to_nat (size_of (map ax_n axes))) ev end.
  (** The frames since the last reset. *)
  Fixpoint since (h : list (cop F)) (acc : list (cin F)) : list (cin F) :=
    match h with
    | [] => acc
    | CCompute true f :: h => since h [f]
    | CCompute false f :: h => since h (acc ++ [f])
    | CRead _ :: h => since h acc
    end.
  Definition in_cells (axes : list axis) (idx : list Z) (fs : list (cin F)) : nat :=
    length (filter (in_cellb axes idx) (flat_map ci_all fs)).

  Lemma since_frames h acc : frames_since (map cop_hop h) (map cframe acc) = map cframe (since h acc).
  Proof.
    revert acc. induction h as [|[[|] f|ev] h IH]; intros acc; simpl; auto.
    - apply (IH [f]).
    - rewrite <- IH, map_app. reflexivity.
  Qed.
  Lemma u32_units {A} (l : list A) : fold_right Z.add 0 (map u32_val (map (fun _ => u32 1) l)) = Z.of_nat (length l).
  Proof. induction l; [reflexivity|]. cbn [map fold_right length]. rewrite IHl. change (u32_val (u32 1)) with 1. rewrite Nat2Z.inj_succ. ring. Qed.
  Lemma cframe_samples f : frame_samples (cframe f) = map (fun p => (p, u32 1)) (ci_all f).
  Proof.
    unfold frame_samples, ci_all. change (fr_n (cframe f)) with (ci_n f). induction (range 0 (ci_n f)) as [|i l IH]; [reflexivity|].
    cbn [flat_map]. rewrite IH, map_app. reflexivity.
  Qed.
  Lemma since_ok axes h : forall acc, Forall (cop_ok axes) h -> Forall (ci_ok axes) acc -> Forall (ci_ok axes) (since h acc).
  Proof.
    induction h as [|[[|] g|e] h IH]; intros acc H A; auto; inversion H; subst; simpl.
    - apply IH; auto.
    - apply IH; auto. apply Forall_app. split; auto.
    - apply IH; auto.
  Qed.

  Theorem count_history axes h ev : valid_axes axes -> Forall (cop_ok axes) h -> execution 0 (Z.to_nat (size_of (map ax_n axes))) ev ->
    exists s, run_history (u32 0) u32_add (bhc_make (u32 0) axes) (map cop_hop h ++ [Read ev]) = Some s /\
      bhc_frames s = length (since h []) /\ (forall l f, since h [] = l ++ [f] -> bhc_last s = Some (ci_data f)) /\
      forall idx, in_shape (map ax_n axes) idx -> exists k,
        ma_get (h_counts (bhc_hist s)) (row_major (map ax_n axes) idx) = Some k /\
        u32_val k = Z.of_nat (in_cells axes idx (since h [])) mod 2 ^ 32.
  Proof.
    intros V H E.
    destruct (C17_history (u32 0) u32_add axes (map cop_hop h) ev u32_laws V) as (s & R & C & N & L).
    { apply Forall_map. eapply Forall_impl; [|exact H]. intros [r f|e] Ho; unfold valid_hop, cop_hop; cbv beta iota; [|exact Ho].
      split; [apply Ho|]. intros i x Hx. apply in_map_iff in Hx as (p & <- & Hp). apply (proj2 Ho i p Hp). }
    { exact E. }
    change (@nil (frame U32 F)) with (map cframe []) in C, N, L. rewrite since_frames in C, N, L. rewrite map_length in N.
    exists s. split; [exact R|]. split; [exact N|]. split.
    - intros l f Hl. apply (L (map cframe l) (cframe f)). rewrite Hl, map_app. reflexivity.
    - intros idx IS. eexists. split; [apply C; exact IS|].
      assert (W : weights_in axes idx (flat_map frame_samples (map cframe (since h []))) =
                  map (fun _ => u32 1) (filter (in_cellb axes idx) (flat_map ci_all (since h [])))).
      { clear. unfold weights_in. induction (since h []) as [|f fs IH]; [reflexivity|]. cbn [map flat_map].
        rewrite !filter_app, !map_app, IH. f_equal. rewrite cframe_samples. induction (ci_all f) as [|p l IHl]; [reflexivity|].
        cbn [map filter fst]. destruct (in_cellb _ _ _); cbn [map snd]; rewrite IHl; reflexivity. }
      rewrite W, u32_sum_mod, u32_units. reflexivity.
  Qed.
End count.
