(** C96 for the bond order diagram. *)
From Verif Require Import SphSpec QuatProofs MatchEnvProofs HistProofs HistProofs2 HistProps ParProofs BondOrderArea BondOrderProps CoarseProps CoarseProps3 CoarseProps5 CoarseSpec.
From Coq Require Import Lra Lia.
Local Open Scope R_scope.

(** The value of bin (i, j) that is read. *)
Definition bo_read (c : bo_conf) (s : bhc U32 unit) (i j : Z) : R :=
  match ma_get (h_counts (bhc_hist s)) (i * bo_np c + j) with Some k => bo_value c (IZR (u32_val k)) (bhc_frames s) i j | None => 0 end.
Definition finer (k1 k2 : Z) (c : bo_conf) : bo_conf := BO (k1 * bo_nt c) (k2 * bo_np c) (bo_m c).
(** Sum over the fine bins of bin (i, j). *)
Definition over (k1 k2 i j : Z) (F : Z -> Z -> R) : R := fold_right Rplus 0 (map (fun x => match x with [a; b] => F a b | _ => 0 end) (fine_cells [k1; k2] [i; j])).

Lemma filter_map_length {A B} (P : B -> bool) (g : A -> B) l : length (filter (fun v => P (g v)) l) = length (filter P (map g l)).
Proof. induction l as [|x l IH]; simpl; auto. destruct (P (g x)); simpl; auto. Qed.
Lemma fine_pair k1 k2 i j x : (0 < k1)%Z -> (0 < k2)%Z -> In x (fine_cells [k1; k2] [i; j]) -> exists a b, x = [a; b] /\ (a / k1 = i)%Z /\ (b / k2 = j)%Z.
Proof.
  intros H1 H2 H. apply fine_cells_spec in H as [L E]; [|repeat constructor; auto|reflexivity]. destruct x as [|a [|b [|]]]; try discriminate. exists a, b. unfold coarse_index in E. simpl in E. injection E as E1 E2. auto.
Qed.
Lemma cell_count_fine k1 k2 c i j fs : (0 < k1)%Z -> (0 < k2)%Z -> bo_valid c -> bo_valid (finer k1 k2 c) -> (0 <= i < bo_nt c)%Z -> (0 <= j < bo_np c)%Z ->
  cell_count c i j fs = sum_of 0%nat Nat.add (map (fun x => match x with [a; b] => cell_count (finer k1 k2 c) a b fs | _ => 0%nat end) (fine_cells [k1; k2] [i; j])).
Proof.
  intros H1 H2 V V' Hi Hj. assert (HK : Forall (fun k => (0 < k)%Z) [k1; k2]) by (repeat constructor; auto). assert (HI : in_shape (map ax_n (bo_axes c)) [i; j]) by (repeat constructor; simpl; lia).
  unfold cell_count at 1. rewrite (filter_map_length (in_cellb (bo_axes c) [i; j]) (fun v => [azimuth v; polar v])). rewrite <- ones_count.
  rewrite (sum_fine 0%nat Nat.add nat_laws (bo_axes c) [k1; k2] [i; j]); auto; [| |exact (proj1 (bo_axes_valid _ V'))|]; [|exact (proj1 (bo_axes_valid _ V))|].
  - f_equal. apply map_ext_in. intros x Hx. destruct (fine_pair _ _ _ _ _ H1 H2 Hx) as (a & b & -> & _). rewrite ones_count. unfold cell_count. rewrite (filter_map_length (in_cellb (bo_axes (finer k1 k2 c)) [a; b]) (fun v => [azimuth v; polar v])). reflexivity.
  - intros s Hs. apply in_map_iff in Hs as (p & <- & Hp). apply in_map_iff in Hp as (v & <- & _). reflexivity.
Qed.

(** BondOrder with k1 and k2 times as many bins along the two angles, over the same frames: value times solid angle adds up. *)
Theorem C96_bond_order : forall c k1 k2 h h' ev ev', (0 < k1)%Z -> (0 < k2)%Z -> bo_valid c -> bo_valid (finer k1 k2 c) ->
  Forall (bo_op_ok c) h -> Forall (bo_op_ok (finer k1 k2 c)) h' -> execution 0 (Z.to_nat (bo_nt c * bo_np c)) ev -> execution 0 (Z.to_nat (k1 * bo_nt c * (k2 * bo_np c))) ev' ->
  bo_since h [] <> [] -> bo_since h' [] = bo_since h [] ->
  exists s s', run_history (u32 0) u32_add (bhc_make (u32 0) (bo_axes c)) (map (bo_hop c) h ++ [Read ev]) = Some s /\
    run_history (u32 0) u32_add (bhc_make (u32 0) (bo_axes (finer k1 k2 c))) (map (bo_hop (finer k1 k2 c)) h' ++ [Read ev']) = Some s' /\
    forall i j, (0 <= i < bo_nt c)%Z -> (0 <= j < bo_np c)%Z -> (Z.of_nat (cell_count c i j (bo_since h [])) < 2 ^ 32)%Z ->
      bo_read c s i j * cell_area c i j = over k1 k2 i j (fun a b => bo_read (finer k1 k2 c) s' a b * cell_area (finer k1 k2 c) a b).
Proof.
  intros c k1 k2 h h' ev ev' H1 H2 V V' Hh Hh' He He' NE Hs.
  destruct (C48_bond_order c h ev V Hh He NE) as (s & E & _ & G). destruct (C48_bond_order (finer k1 k2 c) h' ev' V' Hh' He' ltac:(rewrite Hs; exact NE)) as (s' & E' & _ & G'). rewrite Hs in G'.
  exists s, s'. split; [exact E|]. split; [exact E'|]. intros i j Hi Hj Sm. set (N := INR (length (bo_since h []))) in *. assert (NP : 0 < N) by (apply lt_0_INR; destruct (bo_since h []); [congruence|simpl; lia]).
  apply (Rmult_eq_reg_r N); [|lra]. transitivity (INR (cell_count c i j (bo_since h []))).
  { destruct (G i j Hi Hj) as (k & K1 & _ & K3). unfold bo_read. rewrite K1. apply K3; auto. }
  rewrite (cell_count_fine k1 k2) in Sm |- * by auto. unfold over.
  assert (SH : forall x, In x (fine_cells [k1; k2] [i; j]) -> exists a b, x = [a; b] /\ (0 <= a < k1 * bo_nt c)%Z /\ (0 <= b < k2 * bo_np c)%Z).
  { intros x Hx. destruct (fine_pair _ _ _ _ _ H1 H2 Hx) as (a & b & -> & Ea & Eb). exists a, b. split; auto. pose proof (Z.div_mod a k1 ltac:(lia)). pose proof (Z.mod_pos_bound a k1 H1). pose proof (Z.div_mod b k2 ltac:(lia)). pose proof (Z.mod_pos_bound b k2 H2). rewrite Ea in *. rewrite Eb in *. split; nia. }
  revert Sm SH. generalize (fine_cells [k1; k2] [i; j]) as xs. induction xs as [|x xs IH]; intros Sm SH; [unfold sum_of; simpl; ring|]. cbn [map fold_right] in *. rewrite (sum_cons 0%nat Nat.add nat_laws) in Sm |- *. rewrite plus_INR, Rmult_plus_distr_r.
  rewrite IH; [|lia|intros; apply SH; right; auto]. f_equal. destruct (SH x (or_introl eq_refl)) as (a & b & -> & Ha & Hb). destruct (G' a b Ha Hb) as (k & K1 & _ & K3). unfold bo_read. rewrite K1. symmetry. apply K3. lia.
Qed.

(** Two frames, 2 by 2 against 4 by 6 bins. *)
Example C96_bond_order_ex : exists s s' ev ev', let f := BI [qid] [qid] 1 (fun _ => [Bond 0 0 1 1 (V3 0 0 1)]) [(0%nat, 0%nat)] in let c := BO 2 2 Bod in
  run_history (u32 0) u32_add (bhc_make (u32 0) (bo_axes c)) (map (bo_hop c) [BoCompute true f; BoCompute false f] ++ [Read ev]) = Some s /\
  run_history (u32 0) u32_add (bhc_make (u32 0) (bo_axes (finer 2 3 c))) (map (bo_hop (finer 2 3 c)) [BoCompute true f; BoCompute false f] ++ [Read ev']) = Some s' /\
  bo_read c s 0 0 * cell_area c 0 0 = over 2 3 0 0 (fun a b => bo_read (finer 2 3 c) s' a b * cell_area (finer 2 3 c) a b).
Proof.
  set (f := BI [qid] [qid] 1 (fun _ => [Bond 0 0 1 1 (V3 0 0 1)]) [(0%nat, 0%nat)]). assert (H : V3 0 0 1 <> v0) by (intros E; injection E; lra).
  assert (F : bi_ok f). { split; [exact (sequential_execution 0 1 0)|]. split; [repeat constructor; apply unitq_id|]. split; [repeat constructor; apply unitq_id|]. intros i b [<-|[]]. simpl. repeat split; auto; lia. }
  destruct (C96_bond_order (BO 2 2 Bod) 2 3 [BoCompute true f; BoCompute false f] [BoCompute true f; BoCompute false f] (map (fun i => (0%nat, i)) (range 0 4)) (map (fun i => (0%nat, i)) (range 0 24))) as (s & s' & E & E' & G); try lia.
  - unfold bo_valid; simpl; lia.
  - unfold bo_valid; simpl; lia.
  - constructor; [exact F|constructor; [exact F|apply Forall_nil]].
  - constructor; [exact F|constructor; [exact F|apply Forall_nil]].
  - exact (sequential_execution 0 4 0).
  - exact (sequential_execution 0 24 0).
  - discriminate.
  - reflexivity.
  - exists s, s', (map (fun i => (0%nat, i)) (range 0 4)), (map (fun i => (0%nat, i)) (range 0 24)). cbv zeta. split; [exact E|]. split; [exact E'|]. apply G; simpl; try lia.
    assert (B : forall A g (l : list A), (length (filter g l) <= length l)%nat) by (intros A g l; induction l as [|x l IH]; simpl; [lia|destruct (g x); simpl; lia]).
    unfold cell_count. eapply Z.le_lt_trans; [apply inj_le, B|]. simpl. lia.
Qed.
Print Assumptions C96_bond_order.
