(** C95: RDFs, densities and voxels of a system put together from parts. *)
From Coq Require Import Reals ZArith List Permutation Lia Lra.
From Verif Require Import RBase Vec BoxProofs ParProofs MArrayProofs RdfProps GridProofs VoxProps GaussProps.
From Verif Require Import RdfShell RdfSpec GridSpec MoreSpec BoxSpec.
Import ListNotations.
Local Open Scope R_scope.

Lemma seq_from k m : seq k m = map (fun i => k + i)%nat (seq 0 m).
Proof. revert k. induction m as [|m IH]; intros k; simpl; auto. f_equal; [lia|]. rewrite IH, <- seq_shift, map_map. apply map_ext. intros. lia. Qed.
(** GaussianDensity adds up: in any box and for any radius, every voxel holds the sum of what the parts give it. *)
Theorem C95_gaussian s b A B v va vb ev ev2 eva eva2 evb evb2 : good_width b (gd_width s) -> same_dim (gd_dim s) (b_2d b) = true -> values_together v va vb ->
  (forall l, va = Some l -> length l = length A) -> (forall l, vb = Some l -> length l = length B) ->
  execution 0 (length (A ++ B)) ev -> execution 0 (length A) eva -> execution 0 (length B) evb ->
  let size := Z.to_nat (size_of (shape_of (gd_width s))) in execution 0 size ev2 -> execution 0 size eva2 -> execution 0 size evb2 ->
  exists c ca cb, let res a := VDone (GD (gd_width s) (gd_r s) (gd_sigma s) (Some (b_2d b)) (Some a)) in
    gd_py_compute s b (A ++ B) v ev ev2 = res c /\ gd_py_compute s b A va eva eva2 = res ca /\ gd_py_compute s b B vb evb evb2 = res cb /\
    forall n, in_shape (shape_of (gd_width s)) n -> exists x y, ma_get ca (row_major (shape_of (gd_width s)) n) = Some x /\ ma_get cb (row_major (shape_of (gd_width s)) n) = Some y /\ ma_get c (row_major (shape_of (gd_width s)) n) = Some (x + y).
Proof.
  intros HW SD V LA LB E Ea Eb size E2 Ea2 Eb2. assert (EW := eff_good _ _ HW). assert (W := width_good _ _ HW).
  assert (PY : forall pts vs e e2, (forall l, vs = Some l -> length l = length pts) -> gd_py_compute s b pts vs e e2 = gd_compute s b pts vs e e2).
  { intros pts [l|] e e2 H; [|reflexivity]. unfold gd_py_compute. rewrite (H l eq_refl), Nat.eqb_refl. reflexivity. }
  assert (LAB : forall l, v = Some l -> length l = length (A ++ B)).
  { intros l El. rewrite app_length. destruct V as [(-> & _)|(la & lb & Ha & Hb & ->)]; [discriminate|]. injection El as <-. rewrite app_length, (LA la Ha), (LB lb Hb). reflexivity. }
  rewrite !PY by auto.
  destruct (compute_adds s b (A ++ B) v ev ev2) as (c & C & _ & G); auto; [rewrite EW; auto|rewrite EW; auto|]. destruct (compute_adds s b A va eva eva2) as (ca & Ca & _ & Ga); auto; [rewrite EW; auto|rewrite EW; auto|].
  destruct (compute_adds s b B vb evb evb2) as (cb & Cb & _ & Gb); auto; [rewrite EW; auto|rewrite EW; auto|]. rewrite EW in *. exists c, ca, cb. split; [exact C|]. split; [exact Ca|]. split; [exact Cb|].
  intros n Hn. eexists _, _. split; [apply Ga; auto|]. split; [apply Gb; auto|]. rewrite (G n Hn), app_length, seq_app, map_app, rsum_app. do 2 f_equal.
  - f_equal. apply map_ext_in. intros i Hi. apply in_seq in Hi. rewrite app_nth1 by lia. f_equal. f_equal. destruct V as [(-> & -> & _)|(la & lb & -> & -> & ->)]; auto. rewrite app_nth1; auto. rewrite (LA la eq_refl). lia.
  - rewrite seq_from, map_map. f_equal. apply map_ext_in. intros i Hi. apply in_seq in Hi. rewrite app_nth2 by lia. f_equal. f_equal; [f_equal; lia|].
    destruct V as [(-> & -> & ->)|(la & lb & -> & -> & ->)]; auto. rewrite app_nth2, (LA la eq_refl) by (rewrite (LA la eq_refl); lia). f_equal. lia.
Qed.
(** A voxel is marked for both parts together if and only if it is marked for one of them: the larger of both values. *)
Theorem C95_voxels s b A B ws wa wb : good_width b (sv_width s) -> same_dim (sv_dim s) (b_2d b) = true ->
  Permutation (sv_writes s b (A ++ B)) ws -> Permutation (sv_writes s b A) wa -> Permutation (sv_writes s b B) wb ->
  exists c ca cb, let res a := VDone (SV (sv_width s) (sv_r s) (Some (b_2d b)) (Some a)) in
    sv_compute s b ws = res c /\ sv_compute s b wa = res ca /\ sv_compute s b wb = res cb /\
    forall n, in_shape (shape_of (sv_width s)) n -> exists x y, ma_get ca (row_major (shape_of (sv_width s)) n) = Some x /\ ma_get cb (row_major (shape_of (sv_width s)) n) = Some y /\ ma_get c (row_major (shape_of (sv_width s)) n) = Some (Z.max x y).
Proof.
  intros HW SD P Pa Pb. assert (EW := eff_good _ _ HW). assert (W := width_good _ _ HW).
  destruct (compute_writes s b (A ++ B) ws) as (c & C & _ & G); auto; [rewrite EW; auto|]. destruct (compute_writes s b A wa) as (ca & Ca & _ & Ga); auto; [rewrite EW; auto|].
  destruct (compute_writes s b B wb) as (cb & Cb & _ & Gb); auto; [rewrite EW; auto|]. rewrite EW in *. exists c, ca, cb. split; [exact C|]. split; [exact Ca|]. split; [exact Cb|].
  intros n Hn. eexists _, _. split; [apply Ga; auto|]. split; [apply Gb; auto|]. rewrite (G n Hn). f_equal.
  assert (X : In n (map fst (sv_writes s b (A ++ B))) <-> In n (map fst (sv_writes s b A)) \/ In n (map fst (sv_writes s b B))) by (unfold sv_writes; rewrite flat_map_app, map_app, in_app_iff; tauto).
  destruct (in_dec _ n (map fst (sv_writes s b (A ++ B)))), (in_dec _ n (map fst (sv_writes s b A))), (in_dec _ n (map fst (sv_writes s b B))); simpl; tauto || reflexivity || (exfalso; tauto).
Qed.

Lemma together_count lo hi fs as_ bs : put_together fs as_ bs -> dist_count lo hi fs = (dist_count lo hi as_ + dist_count lo hi bs)%nat.
Proof.
  intros (_ & _ & P). unfold dist_count.
  assert (K : forall l, length (filter (fun x => Rle_bool lo (bd x) && Rlt_bool (bd x) hi) l) = length (filter (fun d => Rle_bool lo d && Rlt_bool d hi) (map bd l))).
  { clear. induction l as [|x l IH]; simpl; auto. destruct (_ && _); simpl; congruence. }
  rewrite !K, <- app_length, <- filter_app. revert P. generalize (map bd (flat_map ri_all as_) ++ map bd (flat_map ri_all bs)) (map bd (flat_map ri_all fs)). clear. intros l' l P.
  induction P; simpl; auto; repeat match goal with |- context [if ?c then _ else _] => destruct c end; simpl; congruence.
Qed.
(** Partial RDFs: n_r adds up over the parts, and g(r) is the mean of the parts weighted with their numbers of points. *)
Theorem C95_partial_rdfs bins r_max r_min r0 h ha hb ev eva evb fs f as_ a bs b : rdf_make bins r_max r_min = Some r0 -> (0 <= bins < 4294967295)%Z -> Forall (rop_ok bins) h -> Forall (rop_ok bins) ha -> Forall (rop_ok bins) hb ->
  execution 0 (Z.to_nat bins) ev -> execution 0 (Z.to_nat bins) eva -> execution 0 (Z.to_nat bins) evb ->
  let md := read_mode h false Exact None in read_mode ha false Exact None = md -> read_mode hb false Exact None = md -> rsince h [] = fs ++ [f] -> rsince ha [] = as_ ++ [a] -> rsince hb [] = bs ++ [b] ->
  put_together (fs ++ [f]) (as_ ++ [a]) (bs ++ [b]) -> data_together (ri_data f) (ri_data a) (ri_data b) -> data_ok md (ri_data a) -> data_ok md (ri_data b) -> (Z.of_nat (dist_count r_min r_max (fs ++ [f])) < 2 ^ 32)%Z ->
  exists r ra rb, rdf_run r0 (h ++ [RRead ev]) = Some r /\ rdf_run r0 (ha ++ [RRead eva]) = Some ra /\ rdf_run r0 (hb ++ [RRead evb]) = Some rb /\
    forall i, (i < Z.to_nat bins)%nat -> nth i (rdf_nr r) 0 = nth i (rdf_nr ra) 0 + nth i (rdf_nr rb) 0 /\
      INR (rd_np (ri_data f)) * nth i (rdf_pcf r) 0 = INR (rd_np (ri_data a)) * nth i (rdf_pcf ra) 0 + INR (rd_np (ri_data b)) * nth i (rdf_pcf rb) 0.
Proof.
  intros M Bn Hh Ha Hb X Xa Xb md Ema Emb Rs Ra Rb T (D1 & D2 & D3 & D4 & D5 & D6 & D7) Da Db Small.
  assert (Dk : data_ok md (ri_data f)) by (destruct Da as (V & N & Q); unfold data_ok; rewrite D1, D5, D7; split; [exact V|]; split; [lia|exact Q]).
  assert (O : 0 < r_max /\ 0 <= r_min /\ r_min < r_max /\ (0 < bins)%Z).
  { assert (N : ~ rdf_make bins r_max r_min = None) by congruence. rewrite C49_reject in N by lia. repeat split; try (apply Rnot_le_lt; tauto); try (apply Rnot_lt_le; tauto). lia. }
  destruct O as (O1 & O2 & O3 & O4). assert (TC := fun lo hi => together_count lo hi _ _ _ T). assert (Sm := TC r_min r_max).
  destruct (C49_values bins r_max r_min r0 h ev fs f M Bn Hh X Rs Dk Small) as (r & E & _ & _ & V).
  destruct (C49_values bins r_max r_min r0 ha eva as_ a M Bn Ha Xa Ra) as (ra & Ea & _ & _ & Va); [rewrite Ema; auto|lia|].
  destruct (C49_values bins r_max r_min r0 hb evb bs b M Bn Hb Xb Rb) as (rb & Eb & _ & _ & Vb); [rewrite Emb; auto|lia|].
  exists r, ra, rb. split; [exact E|]. split; [exact Ea|]. split; [exact Eb|]. cbv zeta in V, Va, Vb. fold md in V. rewrite Ema in Va. rewrite Emb in Vb. destruct T as (L1 & L2 & _). rewrite <- L1 in Va. rewrite <- L2 in Vb.
  assert (DE : density md (ri_data a) = density md (ri_data f) /\ density md (ri_data b) = density md (ri_data f)) by (unfold density; rewrite <- D1, <- D2, <- D5, <- D6; split; reflexivity). destruct DE as [DE1 DE2].
  rewrite DE1, <- D3, <- D5 in Va. rewrite DE2, <- D4, <- D6 in Vb. set (d := ri_data f) in *. set (nf := INR (length (fs ++ [f]))) in *.
  assert (NF : 0 < nf) by (apply lt_0_INR; rewrite app_length; simpl; lia). destruct Dk as (Vp & Np & Nq).
  assert (Nq' : 0 < INR (rd_nqp d)) by (apply lt_0_INR; destruct md; lia).
  assert (DP : 0 < density md d).
  { unfold density. destruct md; [apply Rdiv_lt_0_compat; auto|]. apply Rdiv_lt_0_compat; auto. assert (1 < INR (rd_nqp d)) by (apply (lt_INR 1); auto). lra. }
  assert (BP : 0 < IZR bins) by (apply IZR_lt; auto). assert (WP : 0 < (r_max - r_min) / IZR bins) by (apply Rdiv_lt_0_compat; lra).
  intros i Hi. destruct (V i Hi) as [V1 V2]. destruct (Va i Hi) as [Va1 Va2]. destruct (Vb i Hi) as [Vb1 Vb2]. rewrite TC, plus_INR, <- Va1, <- Vb1 in V1. rewrite TC, plus_INR, <- Va2, <- Vb2 in V2.
  assert (SP : 0 < RdfShell.shell (rd_2d d) (edge bins r_max r_min i) (edge bins r_max r_min (S i))) by (apply shell_pos; unfold edge; rewrite S_INR; assert (0 <= INR i) by apply pos_INR; split; [nra|lra]). split.
  - apply (Rmult_eq_reg_r (INR (rd_nqp d) * nf)); [lra|]. apply Rgt_not_eq, Rmult_lt_0_compat; auto.
  - set (k := density md d * RdfShell.shell (rd_2d d) (edge bins r_max r_min i) (edge bins r_max r_min (S i)) * nf).
    apply (Rmult_eq_reg_r k); [unfold k; lra|]. apply Rgt_not_eq. unfold k. repeat apply Rmult_lt_0_compat; auto.
Qed.
Print Assumptions C95_gaussian.
Print Assumptions C95_voxels.
Print Assumptions C95_partial_rdfs.
