(** C83: systems in every supported form. *)
From Coq Require Import Reals List Bool Psatz.
Import ListNotations.
From Verif Require Import RBase Vec BoxProofs BoxPyProofs SystemSpec.
Open Scope R_scope.

Lemma consistent_periodic b : consistent b -> fully_periodic b -> b = mk_box (vx (b_L b)) (vy (b_L b)) (vz (b_L b)) (b_xy b) (b_xz b) (b_yz b) (b_2d b).
Proof. intros C (Px & Py & Pz). unfold consistent in C. rewrite Px, Py, Pz in C. rewrite C at 1. reflexivity. Qed.
Lemma positive_py b : positive b -> py_box (vx (b_L b)) (vy (b_L b)) (vz (b_L b)) (b_xy b) (b_xz b) (b_yz b) (Some (b_2d b)) = Some (mk_box (vx (b_L b)) (vy (b_L b)) (vz (b_L b)) (b_xy b) (b_xz b) (b_yz b) (b_2d b)).
Proof. intros (_ & X & Y & Z). unfold py_box. rewrite !(Reqb_neq _ 0) by lra. destruct (b_2d b); cbn [orb]; auto. rewrite (Reqb_neq _ 0) by (specialize (Z eq_refl); lra). reflexivity. Qed.
Lemma finish_made b d : positive b -> consistent b -> fully_periodic b -> d = None \/ d = Some (dimensions b) -> finish_box (vx (b_L b)) (vy (b_L b)) (vz (b_L b)) (b_xy b) (b_xz b) (b_yz b) d = Some b.
Proof.
  intros P C F D. unfold finish_box. replace (match d with Some d => d | None => if Reqb (vz (b_L b)) 0 then 2%nat else 3%nat end =? 2)%nat with (b_2d b).
  - rewrite positive_py by auto. f_equal. symmetry. apply consistent_periodic; auto.
  - destruct P as ((_ & _ & _ & Z2 & _) & _ & _ & Z). unfold dimensions in D. destruct (b_2d b); destruct D as [-> | ->]; auto.
    + rewrite Z2, Reqb_refl; auto.
    + rewrite (Reqb_neq _ 0); auto. specialize (Z eq_refl). lra.
Qed.
Lemma gives_eq o x : gives o x -> orelse0 o = x. Proof. intros [->|[-> ->]]; auto. Qed.
Lemma fields_made f b : positive b -> consistent b -> fully_periodic b -> fields_of f b -> from_fields f None = Some b.
Proof.
  intros P C F (X & Y & Z & XY & XZ & YZ & D). unfold from_fields. rewrite X, Y. cbn [merge_dims]. rewrite (gives_eq _ _ Z), (gives_eq _ _ XY), (gives_eq _ _ XZ), (gives_eq _ _ YZ). apply finish_made; auto.
Qed.
Lemma columns_cell b : columns (V3 (vx (a1 b)) (vx (a2 b)) (vx (a3 b))) (V3 (vy (a1 b)) (vy (a2 b)) (vy (a3 b))) (V3 (vz (a1 b)) (vz (a2 b)) (vz (a3 b))) = to_matrix b.
Proof. reflexivity. Qed.
Lemma matrix_made b d : positive b -> consistent b -> fully_periodic b -> planar b -> d = None \/ d = Some (dimensions b) -> from_matrix (to_matrix b) d = Some b.
Proof.
  intros P C F PL D. rewrite from_matrix_core by apply P. cbv zeta.
  transitivity (finish_box (vx (b_L b)) (vy (b_L b)) (vz (b_L b)) (b_xy b) (b_xz b) (b_yz b) d); [|apply finish_made; auto]. unfold finish_box.
  destruct (Reqb_spec (vz (b_L b)) 0) as [E|E]; auto. destruct P as (_ & _ & _ & Z). destruct (b_2d b) eqn:E2; [|specialize (Z eq_refl); lra]. destruct (PL E2) as [-> ->]. reflexivity.
Qed.
Lemma converted x b : positive b -> consistent b -> box_described x b -> convert_box x None = Some b.
Proof.
  intros P C H. unfold convert_box. destruct H as [b|f b F G|f b F G|b F|b F (X & Y & Z)|b F (X & Y & Z) E|b F PL]; auto; cbn [from_box_like from_list].
  - rewrite fields_made with (b := b); auto.
  - rewrite fields_made with (b := b); auto.
  - rewrite finish_made; auto.
  - assert (Q := finish_made b None P C F (or_introl eq_refl)). rewrite X, Y, Z in Q. rewrite Q. reflexivity.
  - assert (Q := finish_made b None P C F (or_introl eq_refl)). rewrite X, Y, Z in Q. assert (E0 : vz (b_L b) = 0) by (apply P; auto). rewrite E0 in Q. rewrite Q. reflexivity.
  - rewrite columns_cell, matrix_made; auto.
Qed.
Lemma rows_made pts : convert_rows (map (fun v => [vx v; vy v; vz v]) pts) = Some pts.
Proof. induction pts as [|v l IH]; cbn [map convert_rows convert_row]; auto. rewrite IH. destruct v. reflexivity. Qed.
Lemma points_made p b pts : points_described p b pts -> convert_points p = Some pts /\ b_2d b && existsb (fun v => Rltb (1 / 1000000) (Rabs (vz v))) pts = false.
Proof.
  intros (-> & N & Z). split.
  - unfold convert_points. destruct pts; [congruence|]. cbn [map]. apply (rows_made (v :: pts)).
  - destruct (b_2d b); auto. cbn [andb]. specialize (Z eq_refl). induction pts as [|v l IH]; auto. cbn [existsb]. rewrite (proj2 (Rltb_false _ _)) by (apply Z; left; auto). cbn [orb]. destruct l; [auto|]. apply IH; [discriminate|]. intros w Hw. apply Z. right. auto.
Qed.
Lemma constructed accepts k x p b pts : convert_box x None = Some b -> points_described p b pts -> accepts k b pts = true -> construct accepts k x p = Some (NQ k b pts).
Proof. intros C P A. unfold construct. destruct (points_made _ _ _ P) as [E Z]. rewrite C, E, Z, A. reflexivity. Qed.
Lemma class_eqb x y : nq_class_eqb x y = true -> x = y. Proof. destruct x, y; auto; discriminate. Qed.
(** Every description of a box and points gives a query object with exactly that box and those points. *)
Theorem C83_described accepts cls s dims b pts : positive b -> consistent b -> described s b pts ->
  (forall k, cls = Some k \/ k = RawPoints -> accepts k b pts = true) ->
  exists k, from_system accepts cls s dims = Some (NQ k b pts) /\ (forall k', cls = Some k' -> k = k').
Proof.
  intros P C H A. set (k := match cls with None => RawPoints | Some k => k end).
  assert (Ak : accepts k b pts = true) by (apply A; unfold k; destruct cls; auto). assert (Kk : forall k', cls = Some k' -> k = k') by (intros k' E; unfold k; rewrite E; reflexivity).
  assert (G : forall x p, convert_box x None = Some b -> points_described p b pts -> construct accepts k x p = Some (NQ k b pts)) by (intros; apply constructed; auto).
  destruct H as [k0 b pts N Z|x p b pts X Y|x p b pts X Y|x p b pts X Y|p b pts F D Y|Lz xz yz p b pts F D PL Y|p b pts F PL Y|f p b pts F D FF DI Y|Lz xz yz p b pts F D PL Y]; unfold from_system; fold k.
  - cbn [nq_is nq_box nq_points]. destruct (match cls with None => true | Some k => nq_class_eqb k k0 end) eqn:E.
    + exists k0. split; auto. intros k' ->. symmetry. apply class_eqb. auto.
    + exists k. split; auto. assert (BC : box_from_cpp b = Some b) by (unfold box_from_cpp; cbv zeta; rewrite positive_py by auto; f_equal; symmetry; exact C). rewrite BC. apply G; [reflexivity|]. split; auto.
  - exists k. split; auto. apply G; auto. apply converted; auto.
  - exists k. split; auto. apply G; auto. apply converted; auto.
  - exists k. split; auto. apply G; auto. apply converted; auto.
  - exists k. split; auto. cbn [Nat.eqb]. apply G; auto. apply (converted _ b P C). constructor; auto.
  - exists k. split; auto. cbn [Nat.eqb]. destruct (PL D) as [E1 E2]. assert (E0 : vz (b_L b) = 0) by (apply P; auto). assert (Q := converted _ b P C (bd_six b F)). rewrite E0, E1, E2 in Q. apply G; auto.
  - exists k. split; auto. cbn [from_box_like]. rewrite columns_cell. rewrite matrix_made; auto.
  - exists k. split; auto. rewrite DI. apply G; auto. apply (converted _ b P C). constructor; auto.
  - exists k. split; auto. cbn [g_dims g_Lx g_Ly g_xy]. destruct (PL D) as [E1 E2]. assert (E0 : vz (b_L b) = 0) by (apply P; auto). assert (Q := positive_py b P). rewrite E0, E1, E2, D in Q.
    replace (py_box (vx (b_L b)) (vy (b_L b)) 0 (b_xy b) 0 0 None) with (Some b); [apply G; auto|]. transitivity (py_box (vx (b_L b)) (vy (b_L b)) 0 (b_xy b) 0 0 (Some true)).
    + rewrite Q. f_equal. assert (R := consistent_periodic b C F). rewrite E0, E1, E2, D in R. exact R.
    + unfold py_box. rewrite Reqb_refl. reflexivity.
Qed.
(** Two descriptions of the same thing give the same object, so that all queries agree. *)
Theorem C83_agree accepts k s s' dims dims' b pts : positive b -> consistent b -> described s b pts -> described s' b pts ->
  accepts k b pts = true -> accepts RawPoints b pts = true -> from_system accepts (Some k) s dims = from_system accepts (Some k) s' dims'.
Proof.
  intros P C H H' A A0. assert (HA : forall k', Some k = Some k' \/ k' = RawPoints -> accepts k' b pts = true) by (intros k' [E| ->]; [assert (k' = k) by congruence; subst|]; auto).
  destruct (C83_described accepts (Some k) s dims b pts P C H HA) as (x & -> & X). destruct (C83_described accepts (Some k) s' dims' b pts P C H' HA) as (y & -> & Y). rewrite (X k eq_refl), (Y k eq_refl). reflexivity.
Qed.

(** * Matrices of any orientation *)
Lemma lagrange u v : dot (cross u v) (cross u v) = dot u u * dot v v - dot u v * dot u v. Proof. unfold dot, cross. cbn [vx vy vz]. ring. Qed.
Lemma dot_pos u : 0 <= dot u u. Proof. unfold dot. assert (A := Rle_0_sqr (vx u)). assert (B := Rle_0_sqr (vy u)). assert (C := Rle_0_sqr (vz u)). unfold Rsqr in *. lra. Qed.
Lemma dot_zero u : dot u u = 0 -> u = v0.
Proof. intros H. unfold dot in H. assert (A := Rle_0_sqr (vx u)). assert (B := Rle_0_sqr (vy u)). assert (C := Rle_0_sqr (vz u)). unfold Rsqr in *. vec_ext; apply Rsqr_0_uniq; unfold Rsqr; lra. Qed.
Lemma gram_det u v w : triple u v w * triple u v w =
  dot u u * (dot v v * dot w w - dot v w * dot v w) - dot u v * (dot u v * dot w w - dot v w * dot u w) + dot u w * (dot u v * dot v w - dot v v * dot u w).
Proof. unfold triple, dot, cross. cbn [vx vy vz]. ring. Qed.
Lemma matrix_gram u v w : triple u v w <> 0 -> exists r, from_matrix (u, v, w) None = Some r /\ b_2d r = false /\ fully_periodic r /\ consistent r /\ 0 < vx (b_L r) /\ 0 < vy (b_L r) /\
  vz (b_L r) * (vx (b_L r) * vy (b_L r)) = triple u v w /\
  dot (a1 r) (a1 r) = dot u u /\ dot (a1 r) (a2 r) = dot u v /\ dot (a2 r) (a2 r) = dot v v /\ dot (a1 r) (a3 r) = dot u w /\ dot (a2 r) (a3 r) = dot v w /\ dot (a3 r) (a3 r) = dot w w.
Proof.
  intros T. assert (C0 : dot (cross u v) (cross u v) <> 0). { intros E. apply dot_zero in E. apply T. unfold triple. rewrite E. unfold dot, v0. cbn [vx vy vz]. ring. }
  assert (C1 : 0 < dot (cross u v) (cross u v)) by (assert (X := dot_pos (cross u v)); lra). assert (LG := lagrange u v). assert (GD := gram_det u v w).
  assert (U0 : 0 < dot u u). { assert (X := dot_pos u). destruct (Req_dec (dot u u) 0) as [E|E]; [|lra]. exfalso. rewrite E in LG. assert (Y := Rle_0_sqr (dot u v)). unfold Rsqr in Y. lra. }
  unfold from_matrix. cbv zeta. set (Lx := sqrt (dot u u)). set (guu := dot u u) in *. set (guv := dot u v) in *. set (gvv := dot v v) in *. set (guw := dot u w) in *. set (gvw := dot v w) in *. set (gww := dot w w) in *.
  assert (LX : 0 < Lx) by (apply sqrt_lt_R0; auto). assert (LX2 : Lx * Lx = guu) by (apply sqrt_sqrt; lra).
  assert (Y2 : gvv - guv / Lx * (guv / Lx) = dot (cross u v) (cross u v) / guu) by (rewrite LG, <- LX2; field; lra).
  set (Ly := sqrt (gvv - guv / Lx * (guv / Lx))). assert (YP : 0 < gvv - guv / Lx * (guv / Lx)) by (rewrite Y2; apply Rdiv_lt_0_compat; auto).
  assert (LY : 0 < Ly) by (apply sqrt_lt_R0; auto). assert (LY2 : Ly * Ly = gvv - guv / Lx * (guv / Lx)) by (apply sqrt_sqrt; lra).
  assert (M : sqrt (dot (cross u v) (cross u v)) = Lx * Ly). { replace (dot (cross u v) (cross u v)) with ((Lx * Ly) * (Lx * Ly)); [apply sqrt_square; assert (0 < Lx * Ly) by (apply Rmult_lt_0_compat; auto); lra|]. transitivity ((Lx * Lx) * (Ly * Ly)); [ring|]. rewrite LX2, LY2, Y2. field. lra. }
  rewrite M. fold (triple u v w). set (t := triple u v w) in *. set (Lz := t / (Lx * Ly)).
  assert (LZ : Lz <> 0). { unfold Lz. intros E. apply T. apply Rmult_eq_reg_r with (/ (Lx * Ly)); [|apply Rinv_neq_0_compat; assert (0 < Lx * Ly) by (apply Rmult_lt_0_compat; auto); lra]. rewrite Rmult_0_l. exact E. }
  rewrite !(Reqb_neq Lz 0) by auto. cbn [Nat.eqb]. unfold py_box. rewrite !(Reqb_neq _ 0) by lra. cbn [orb]. eexists. split; [reflexivity|]. split; [reflexivity|]. split; [repeat split|]. split; [unfold consistent; reflexivity|].
  unfold a1, a2, a3, dot. cbn [mk_box set_L b_L b_xy b_xz b_yz b_2d vx vy vz].
  assert (LZ2 : Lz * (Lx * Ly) = t) by (unfold Lz; field; split; lra).
  assert (LXY : Lx * Lx * (Ly * Ly) = guu * gvv - guv * guv) by (rewrite LX2, LY2, Y2, LG; field; lra).
  split; auto. split; auto. split; [exact LZ2|]. split; [rewrite <- LX2; ring|]. split; [field; split; lra|]. split; [transitivity (guv / Lx * (guv / Lx) + Ly * Ly); [field; split; lra|]; rewrite LY2; ring|]. split; [field; split; lra|].
  split; [field; repeat split; lra|].
  (* the last entry: multiply by (Lx Ly)^2 *)
  set (B := guw / Lx). set (A := guv / Lx) in *. set (Cc := (gvw - A * B) / Ly).
  transitivity (B * B + Cc * Cc + Lz * Lz); [replace (B / Lz * Lz) with B by (field; auto); replace ((gvw - A * B) / (Ly * Lz) * Lz) with Cc by (unfold Cc; field; split; lra); reflexivity|].
  apply Rmult_eq_reg_r with (Lx * Lx * (Ly * Ly)); [|rewrite LXY; unfold guu, gvv, guv in *; lra].
  transitivity (B * Lx * (B * Lx) * (Ly * Ly) + (Cc * Ly) * (Cc * Ly) * (Lx * Lx) + (Lz * (Lx * Ly)) * (Lz * (Lx * Ly))); [ring|].
  rewrite LZ2, GD. replace (B * Lx) with guw by (unfold B; field; lra). replace (Cc * Ly) with (gvw - A * B) by (unfold Cc; field; lra).
  replace ((gvw - A * B) * (gvw - A * B) * (Lx * Lx)) with (gvw * gvw * (Lx * Lx) - 2 * gvw * (A * Lx) * (B * Lx) + (A * Lx) * (A * B) * (B * Lx)) by ring.
  replace (A * Lx) with guv by (unfold A; field; lra). replace (B * Lx) with guw by (unfold B; field; lra).
  apply Rmult_eq_reg_r with (Lx * Lx); [|lra].
  replace ((guw * guw * (Ly * Ly) + (gvw * gvw * (Lx * Lx) - 2 * gvw * guv * guw + guv * (A * B) * guw) +
    (guu * (gvv * gww - gvw * gvw) - guv * (guv * gww - gvw * guw) + guw * (guv * gvw - gvv * guw))) * (Lx * Lx))
   with (guw * guw * (Lx * Lx * (Ly * Ly)) + (gvw * gvw * (Lx * Lx) - 2 * gvw * guv * guw) * (Lx * Lx) + guv * ((A * Lx) * (B * Lx)) * guw +
    (guu * (gvv * gww - gvw * gvw) - guv * (guv * gww - gvw * guw) + guw * (guv * gvw - gvv * guw)) * (Lx * Lx)) by ring.
  replace (A * Lx) with guv by (unfold A; field; lra). replace (B * Lx) with guw by (unfold B; field; lra). rewrite LXY, LX2. ring.
Qed.
Lemma vec_eta x : V3 (vx x) (vy x) (vz x) = x. Proof. destruct x; reflexivity. Qed.
(** A right-handed matrix gives a positive box whose cell vectors have the lengths and angles of the columns. *)
Theorem C83_matrix u v w : triple u v w > 0 ->
  exists r, convert_box (BLMatrix (V3 (vx u) (vx v) (vx w)) (V3 (vy u) (vy v) (vy w)) (V3 (vz u) (vz v) (vz w))) None = Some r /\
    positive r /\ b_2d r = false /\ fully_periodic r /\
    dot (a1 r) (a1 r) = dot u u /\ dot (a2 r) (a2 r) = dot v v /\ dot (a3 r) (a3 r) = dot w w /\
    dot (a1 r) (a2 r) = dot u v /\ dot (a1 r) (a3 r) = dot u w /\ dot (a2 r) (a3 r) = dot v w.
Proof.
  intros T. destruct (matrix_gram u v w) as (r & E & D & F & C & X & Y & Z & G); [lra|]. exists r.
  split. { unfold convert_box, from_box_like, columns. cbn [vx vy vz]. rewrite !vec_eta, E. reflexivity. }
  assert (0 < vx (b_L r) * vy (b_L r)) by (apply Rmult_lt_0_compat; auto).
  assert (LZ : 0 < vz (b_L r)) by (apply Rmult_lt_reg_r with (vx (b_L r) * vy (b_L r)); auto; lra).
  split; [|intuition auto]. split; [unfold nonsingular; rewrite D; repeat split; try lra; try congruence; assert (LO := f_equal b_lo C); rewrite D in LO; etransitivity; [exact LO|]; cbn; unfold vscale; cbn; vec_ext; lra|]. split; [auto|]. split; [auto|]. auto.
Qed.
(** A left-handed matrix is accepted and gives a box with a negative Lz. *)
Theorem C83_left_handed_refuted u v w : triple u v w < 0 ->
  exists r, convert_box (BLMatrix (V3 (vx u) (vx v) (vx w)) (V3 (vy u) (vy v) (vy w)) (V3 (vz u) (vz v) (vz w))) None = Some r /\ vz (b_L r) < 0.
Proof.
  intros T. destruct (matrix_gram u v w) as (r & E & D & F & C & X & Y & Z & G); [lra|]. exists r.
  split. { unfold convert_box, from_box_like, columns. cbn [vx vy vz]. rewrite !vec_eta, E. reflexivity. }
  assert (0 < vx (b_L r) * vy (b_L r)) by (apply Rmult_lt_0_compat; auto). apply Rmult_lt_reg_r with (vx (b_L r) * vy (b_L r)); auto. lra.
Qed.
(** The cell is turned to the orientation freud uses, the points are not: a vector of the given lattice need not be one of the box. *)
Theorem C83_rotated_refuted : exists r1 r2 r3 p q u v w,
  columns r1 r2 r3 = (u, v, w) /\ triple u v w > 0 /\ from_system (fun _ _ _ => true) None (SysOvito r1 r2 r3 false p) None = Some q /\
  nq_points q = [v0; v] /\ v = combination u v w 0 1 0 /\ forall i j k, combination (a1 (nq_box q)) (a2 (nq_box q)) (a3 (nq_box q)) i j k <> v.
Proof.
  set (u := V3 0 4 0). set (v := V3 (-2) 0 0). set (w := V3 0 0 3).
  destruct (matrix_gram u v w) as (r & E & D & F & C & X & Y & Z & G1 & G2 & G3 & G4 & G5 & G6). { unfold triple, dot, cross, u, v, w. cbn [vx vy vz]. lra. }
  exists (V3 0 (-2) 0), (V3 4 0 0), (V3 0 0 3), [[0; 0; 0]; [-2; 0; 0]], (NQ RawPoints r [v0; v]), u, v, w.
  split; [reflexivity|]. split; [unfold triple, dot, cross, u, v, w; cbn [vx vy vz]; lra|]. split.
  - unfold from_system, from_box_like. change (columns (V3 0 (-2) 0) (V3 4 0 0) (V3 0 0 3)) with (u, v, w). replace (from_matrix (u, v, w) (Some 3%nat)) with (Some r).
    + unfold construct, convert_box, convert_points. cbn [convert_rows convert_row]. rewrite D. reflexivity.
    + rewrite <- E. unfold from_matrix. cbv zeta. match goal with |- context [Reqb ?z 0] => destruct (Reqb z 0) eqn:K end; [|reflexivity]. exfalso. unfold from_matrix in E. cbv zeta in E. rewrite K in E. cbn [Nat.eqb] in E. unfold py_box in E.
      destruct (_ || _)%bool in E; [discriminate|]. assert (W := f_equal (fun o => match o with Some x => b_2d x | None => true end) E). cbn beta iota in W. rewrite D in W. discriminate W.
  - split; [reflexivity|]. split; [unfold combination, vadd, vscale; cbn [vx vy vz u v w]; unfold v; vec_ext; ring|].
    cbn [nq_box]. intros i j k N. unfold a1, a2, a3, dot, u, v, w in *. cbn [vx vy vz] in *.
    assert (LX : vx (b_L r) = 4) by nra. rewrite LX in *. assert (XY : b_xy r * vy (b_L r) = 0) by nra. assert (LY : vy (b_L r) = 2) by nra.
    assert (XZ : b_xz r * vz (b_L r) = 0) by nra. assert (HX := f_equal vx N). unfold combination, vadd, vscale in HX. cbn [vx vy vz] in HX. rewrite XY, XZ in HX.
    assert (H4 : IZR (4 * i) = IZR (-2)) by (rewrite mult_IZR; lra). apply eq_IZR in H4. lia.
Qed.
(** MDAnalysis stores the cell vectors as rows: the box is the right one exactly when it is not tilted. *)
Theorem C83_mda accepts cls b p pts dims : positive b -> consistent b -> fully_periodic b -> b_2d b = false -> points_described p b pts ->
  (forall k r, accepts k r pts = true) ->
  exists k r, from_system accepts cls (mda_described b p) dims = Some (NQ k r pts) /\ (r = b <-> untilted b).
Proof.
  intros P C F D PD A. destruct (proj2 P) as (PX & PY & PZ). specialize (PZ D).
  set (u := V3 (vx (a1 b)) (vx (a2 b)) (vx (a3 b))). set (v := V3 (vy (a1 b)) (vy (a2 b)) (vy (a3 b))). set (w := V3 (vz (a1 b)) (vz (a2 b)) (vz (a3 b))).
  assert (T : triple u v w > 0). { unfold triple, dot, cross, u, v, w, a1, a2, a3. cbn [vx vy vz]. rewrite ?D. cbn [vx vy vz]. assert (0 < vz (b_L b) * (vx (b_L b) * vy (b_L b))) by (apply Rmult_lt_0_compat; auto; apply Rmult_lt_0_compat; auto). lra. }
  destruct (matrix_gram u v w) as (r & E & Dr & _ & _ & X & Y & Z & G1 & G2 & G3 & G4 & G5 & G6); [lra|].
  exists (match cls with None => RawPoints | Some k => k end), r. split.
  - unfold mda_described, from_system. apply constructed; auto.
    + unfold convert_box, from_box_like, columns. fold u v w. rewrite E. reflexivity.
    + destruct PD as (-> & N & _). split; [reflexivity|]. split; auto. congruence.
  - assert (NX : dot u u = vx (b_L b) * vx (b_L b) + (b_xy b * vy (b_L b)) * (b_xy b * vy (b_L b)) + (b_xz b * vz (b_L b)) * (b_xz b * vz (b_L b))) by (unfold dot, u, a1, a2, a3; cbn [vx vy vz]; rewrite ?D; cbn [vx vy vz]; ring).
    assert (NY : dot v v = vy (b_L b) * vy (b_L b) + (b_yz b * vz (b_L b)) * (b_yz b * vz (b_L b))) by (unfold dot, v, a1, a2, a3; cbn [vx vy vz]; rewrite ?D; cbn [vx vy vz]; ring).
    assert (SQ : forall x y, 0 < y -> (x * y) * (x * y) = 0 -> x = 0). { intros x y Hy H. apply Rmult_integral in H. assert (x * y = 0) by tauto. apply Rmult_integral in H0. destruct H0; auto; lra. }
    split.
    + intros ->. assert (NX' : dot (a1 b) (a1 b) = vx (b_L b) * vx (b_L b)) by (unfold dot, a1; cbn [vx vy vz]; ring).
      assert (S1 := Rle_0_sqr (b_xy b * vy (b_L b))). assert (S2 := Rle_0_sqr (b_xz b * vz (b_L b))). unfold Rsqr in *.
      assert (XY : b_xy b = 0) by (apply SQ with (vy (b_L b)); auto; lra). assert (XZ : b_xz b = 0) by (apply SQ with (vz (b_L b)); auto; lra).
      assert (NY' : dot (a2 b) (a2 b) = vy (b_L b) * vy (b_L b)) by (unfold dot, a2; cbn [vx vy vz]; rewrite XY; ring).
      split; auto. split; auto. apply SQ with (vz (b_L b)); auto. lra.
    + intros (XY & XZ & YZ). assert (M := matrix_made b). assert (U : u = a1 b) by (unfold u, a1, a2, a3; cbn [vx vy vz]; rewrite XY, XZ; vec_ext; ring).
      assert (V : v = a2 b) by (unfold v, a1, a2, a3; cbn [vx vy vz]; rewrite XY, YZ; vec_ext; ring). assert (W : w = a3 b) by (unfold w, a1, a2, a3; cbn [vx vy vz]; rewrite ?D, XZ, YZ; vec_ext; ring).
      assert (E' : from_matrix (u, v, w) None = Some b). { rewrite U, V, W. apply M; auto; intros H; congruence. }
      congruence.
Qed.
(** The argument dimensions has no effect; a three-dimensional object is made although two dimensions are asked for. *)
Theorem C83_dimensions_refuted : (forall accepts cls s dims, from_system accepts cls s dims = from_system accepts cls s None) /\
  exists q, from_system (fun _ _ _ => true) None (SysPair (BLList [10; 10; 1]) [[0; 0; 1 / 2]]) (Some 2%nat) = Some q /\ b_2d (nq_box q) = false.
Proof.
  split; [reflexivity|]. unfold from_system, construct, convert_box, from_box_like, from_list, finish_box, py_box. rewrite !(Reqb_neq _ 0) by lra. cbn. eexists. split; reflexivity.
Qed.

Lemma rows_kept p pts : convert_rows p = Some pts -> p = map (fun v => [vx v; vy v; vz v]) pts.
Proof.
  revert pts. induction p as [|r l IH]; intros pts H; cbn [convert_rows] in H; [replace pts with (@nil vec3) by congruence; reflexivity|].
  destruct (convert_row r) as [v|] eqn:R; [|discriminate]. destruct (convert_rows l) as [vs|] eqn:L; [|discriminate]. replace pts with (v :: vs) by congruence. cbn [map]. rewrite <- (IH vs eq_refl). f_equal.
  destruct r as [|x [|y [|z [|t r]]]]; try discriminate. cbn in R. replace v with (V3 x y z) by congruence. reflexivity.
Qed.
Lemma construct_kept accepts k x p q : construct accepts k x p = Some q -> nq_is q = k /\ convert_box x None = Some (nq_box q) /\ points_described p (nq_box q) (nq_points q).
Proof.
  unfold construct. destruct (convert_box x None) as [b|]; [|discriminate]. destruct (convert_points p) as [pts|] eqn:P; [|discriminate]. destruct (b_2d b && _)%bool eqn:Z; [discriminate|]. destruct (accepts k b pts); [|discriminate].
  intros H. replace q with (NQ k b pts) by congruence. cbn [nq_is nq_box nq_points]. split; auto. split; auto. unfold convert_points in P. destruct p as [|r p]; [discriminate|]. split; [apply rows_kept; auto|]. split.
  - intros ->. apply rows_kept in P. discriminate.
  - intros D v Hv. rewrite D in Z. cbn [andb] in Z. apply (proj1 (Rltb_false _ _)). destruct (Rltb (1 / 1000000) (Rabs (vz v))) eqn:K; auto. exfalso. assert (E : existsb (fun v => Rltb (1 / 1000000) (Rabs (vz v))) pts = true) by (apply existsb_exists; exists v; auto). congruence.
Qed.
(** The points are the given rows, in order, and the object has the class asked for. *)
Theorem C83_points accepts cls s dims q p : rows_of s p -> from_system accepts cls s dims = Some q ->
  points_described p (nq_box q) (nq_points q) /\ (forall k, cls = Some k -> nq_is q = k) /\ (cls = None -> nq_is q = RawPoints).
Proof.
  intros R H. assert (G : exists x, construct accepts (match cls with None => RawPoints | Some k => k end) x p = Some q).
  { destruct R; unfold from_system in H; eauto.
    - destruct (Nat.eqb d 2); eauto. destruct l as [|? [|? [|? [|? [|? [|? [|? l]]]]]]]; try discriminate. eauto.
    - destruct (from_box_like _ _); [eauto|discriminate].
    - destruct (g_dims f) as [[|[|[|n]]]|]; eauto; try discriminate. destruct (g_Lx f); [|discriminate]. destruct (g_Ly f); [|discriminate]. destruct (g_xy f); [|discriminate]. destruct (py_box _ _ _ _ _ _ _); [eauto|discriminate]. }
  destruct G as [x G]. destruct (construct_kept _ _ _ _ _ G) as (K & B & P). split; auto. split; [intros k ->; auto|intros ->; auto].
Qed.
Lemma finish_zero Lx Ly Lz xy xz yz d : Lx = 0 \/ Ly = 0 -> finish_box Lx Ly Lz xy xz yz d = None.
Proof. intros H. unfold finish_box, py_box. destruct H as [-> | ->]; rewrite (Reqb_refl 0); destruct (Nat.eqb _ 2); cbn [orb]; auto; destruct (Reqb Lx 0); reflexivity. Qed.
Lemma bad_refused x d : bad_box x -> convert_box x d = None.
Proof.
  intros B. assert (E : from_box_like x None = None /\ (forall b, x <> BLBox b)).
  { destruct B as [(l & -> & N2 & N3 & N6)|[(l & -> & Z)|[(f & X & Z)| ->]]].
    - split; [|discriminate]. cbn [from_box_like]. unfold from_list. destruct l as [|? [|? [|? [|? [|? [|? [|? l]]]]]]]; auto; exfalso; cbn in *; lia.
    - split; [|discriminate]. cbn [from_box_like]. unfold from_list. destruct l as [|? [|? [|? [|? [|? [|? [|? l]]]]]]]; auto; apply finish_zero; auto.
    - split; [|destruct X as [-> | ->]; discriminate]. assert (K : from_fields f None = None). { unfold from_fields. destruct (g_Lx f) as [x1|]; auto. destruct (g_Ly f) as [y1|]; auto. destruct (merge_dims None (g_dims f)); auto. apply finish_zero. destruct Z as [Z|[Z|[Z|Z]]]; try discriminate; [left|right]; congruence. }
      destruct X as [-> | ->]; exact K.
    - split; [reflexivity|discriminate]. }
  destruct E as [E NB]. unfold convert_box. destruct x; try (rewrite E; reflexivity). exfalso. apply (NB b). reflexivity.
Qed.
Theorem C83_reject accepts cls s dims :
  (forall x, box_of s x -> bad_box x -> from_system accepts cls s dims = None) /\
  (forall p, rows_of s p -> p = [] \/ (exists r, In r p /\ length r <> 3%nat) -> from_system accepts cls s dims = None) /\
  (forall p x b r, rows_of s p -> box_of s x -> convert_box x None = Some b -> b_2d b = true -> In r p -> Rabs (nth 2 r 0) > 1 / 1000000 -> from_system accepts cls s dims = None) /\
  (s = SysOther -> from_system accepts cls s dims = None).
Proof.
  split; [|split; [|split]].
  - intros x B X. apply bad_refused with (d := None) in X. destruct B; unfold from_system, construct; cbn [Nat.eqb]; rewrite X; reflexivity.
  - intros p Rp B. destruct (from_system accepts cls s dims) as [q|] eqn:E; auto. exfalso. destruct (C83_points _ _ _ _ _ _ Rp E) as ((P & N & Z) & _). destruct B as [-> |(r & I & L)].
    + destruct (nq_points q); [congruence|discriminate].
    + rewrite P in I. apply in_map_iff in I. destruct I as (v & <- & _). apply L. reflexivity.
  - intros p x b r Rp Bx C D I O. destruct (from_system accepts cls s dims) as [q|] eqn:E; auto. exfalso. destruct (C83_points _ _ _ _ _ _ Rp E) as ((P & N & Z) & _).
    assert (BB : nq_box q = b). { destruct Bx; unfold from_system in E; cbn [Nat.eqb] in E; apply construct_kept in E; destruct E as (_ & E & _); congruence. }
    rewrite BB in Z. specialize (Z D). rewrite P in I. apply in_map_iff in I. destruct I as (v & <- & I). specialize (Z v I). cbn [nth] in O. lra.
  - intros ->. reflexivity.
Qed.

(** A number of dimensions asked for: a conflict with the object is refused, and the box made has it. *)
Lemma py_flat Lx Ly Lz xy xz yz d b : py_box Lx Ly Lz xy xz yz (Some d) = Some b -> b_2d b = d.
Proof. unfold py_box. destruct d; [destruct (Reqb Lx 0 || Reqb Ly 0)%bool|destruct (Reqb Lx 0 || Reqb Ly 0 || Reqb Lz 0)%bool]; intros H; try discriminate; injection H as <-; reflexivity. Qed.
Theorem C83_dimensions x d b :
  (forall d', stated_dimensions x = Some d' -> d' <> d -> from_box_like x (Some d) = None) /\
  (from_box_like x (Some d) = Some b -> b_2d b = Nat.eqb d 2) /\
  (forall d', stated_dimensions x = Some d' -> from_box_like x None = Some b -> b_2d b = Nat.eqb d' 2) /\
  (convert_box x (Some d) = Some b -> d = if b_2d b then 2%nat else 3%nat) /\
  (forall e, convert_box x None = Some b -> d = (if b_2d b then 2%nat else 3%nat) -> e <> d -> convert_box x (Some d) = Some b /\ convert_box x (Some e) = None).
Proof.
  assert (FX : forall f d d' b, g_dims f = Some d' -> from_fields f (Some d) = Some b -> d = d').
  { intros f0 d0 d' b0 S. unfold from_fields. destruct (g_Lx f0); [|discriminate]. destruct (g_Ly f0); [|discriminate]. rewrite S. cbn [merge_dims]. destruct (Nat.eqb_spec d0 d'); [auto|discriminate]. }
  assert (FB : forall f d b, from_fields f (Some d) = Some b -> b_2d b = Nat.eqb d 2).
  { intros f0 d0 b0. unfold from_fields. destruct (g_Lx f0); [|discriminate]. destruct (g_Ly f0); [|discriminate]. unfold merge_dims. destruct (g_dims f0) as [d'|]; [destruct (Nat.eqb d0 d'); [|discriminate]|]; apply py_flat. }
  assert (FN : forall f d b, g_dims f = Some d -> from_fields f None = Some b -> b_2d b = Nat.eqb d 2).
  { intros f0 d0 b0 S. unfold from_fields. destruct (g_Lx f0); [|discriminate]. destruct (g_Ly f0); [|discriminate]. rewrite S. apply py_flat. }
  split; [|split; [|split; [|split]]].
  - intros d' S N. destruct x as [b0|f|f|l|r1 r2 r3|]; try discriminate; cbn [stated_dimensions from_box_like] in *.
    + unfold from_box. destruct (Nat.eqb_spec d (dimensions b0)) as [E|E]; auto. unfold dimensions in E. congruence.
    + destruct (from_fields f (Some d)) eqn:E; auto. apply (FX _ _ d') in E; congruence.
    + destruct (from_fields f (Some d)) eqn:E; auto. apply (FX _ _ d') in E; congruence.
  - intros H. destruct x as [b0|f|f|l|r1 r2 r3|]; try discriminate; cbn [from_box_like] in H; eauto.
    + unfold from_box in H. destruct (Nat.eqb d (dimensions b0)); [|discriminate]. apply py_flat in H. exact H.
    + unfold from_list in H. destruct l as [|? [|? [|? [|? [|? [|? [|? l]]]]]]]; try discriminate; apply py_flat in H; exact H.
    + apply py_flat in H. exact H.
  - intros d' S H. destruct x as [b0|f|f|l|r1 r2 r3|]; try discriminate; cbn [stated_dimensions from_box_like] in *; eauto.
    unfold from_box in H. apply py_flat in H. unfold dimensions in H. congruence.
  - unfold convert_box. destruct (match x with BLBox b => Some b | _ => from_box_like x None end) as [b0|]; [|discriminate]. destruct (Nat.eqb_spec (dimensions b0) d); [|discriminate]. intros H. injection H as <-. symmetry. assumption.
  - intros e. unfold convert_box. destruct (match x with BLBox b => Some b | _ => from_box_like x None end) as [b0|]; [|discriminate]. intros H D N. injection H as ->. fold (dimensions b) in D. subst d. rewrite Nat.eqb_refl. split; auto. destruct (Nat.eqb_spec (dimensions b) e); congruence.
Qed.

(** Cases. *)
Example C83_dimensions_case : stated_dimensions (BLAttr (Fields (Some 10) (Some 8) None None None None (Some 2%nat))) = Some 2%nat /\
  (exists b, from_box_like (BLAttr (Fields (Some 10) (Some 8) None None None None (Some 2%nat))) (Some 2%nat) = Some b) /\
  (exists b, convert_box (BLList [10; 8; 6]) None = Some b /\ b_2d b = false).
Proof.
  split; [reflexivity|]. split; [eexists|eexists; split]; cbn [from_box_like from_fields g_Lx g_Ly g_Lz g_xy g_xz g_yz g_dims merge_dims Nat.eqb finish_box]; unfold convert_box, from_box_like, from_list, finish_box, py_box, orelse0; rewrite ?(Reqb_neq _ 0) by lra; reflexivity.
Qed.
Definition tilted_box : box := mk_box 10 8 6 (1 / 2) 0 (1 / 4) false.
Definition flat_box : box := mk_box 10 8 0 (1 / 2) 0 0 true.
Example C83_case : positive tilted_box /\ consistent tilted_box /\ positive flat_box /\ consistent flat_box /\
  described (SysPair (BLDict (Fields (Some 10) (Some 8) (Some 6) (Some (1 / 2)) None (Some (1 / 4)) None)) [[1; 2; 3]; [0; 0; 0]]) tilted_box [V3 1 2 3; v0] /\
  described (SysGsd [10; 8; 6; 1 / 2; 0; 1 / 4] 3 [[1; 2; 3]; [0; 0; 0]]) tilted_box [V3 1 2 3; v0] /\
  described (SysGsd [10; 8; 1; 1 / 2; 7; 7] 2 [[1; 2; 0]]) flat_box [V3 1 2 0] /\
  described (SysOvito (V3 10 4 0) (V3 0 8 0) (V3 0 0 0) true [[1; 2; 0]]) flat_box [V3 1 2 0] /\
  described (SysHoomd2 (Fields (Some 10) (Some 8) (Some 1) (Some (1 / 2)) None None (Some 2%nat)) [[1; 2; 0]]) flat_box [V3 1 2 0].
Proof.
  assert (P : positive tilted_box) by (unfold positive, nonsingular, tilted_box; cbn; repeat split; try lra; try discriminate; unfold vscale; cbn; vec_ext; lra).
  assert (P' : positive flat_box) by (unfold positive, nonsingular, flat_box; cbn; repeat split; try lra; try discriminate; unfold vscale; cbn; vec_ext; lra).
  split; auto. split; [reflexivity|]. split; auto. split; [reflexivity|].
  assert (F : fully_periodic tilted_box) by (repeat split). assert (F' : fully_periodic flat_box) by (repeat split).
  assert (D : points_described [[1; 2; 3]; [0; 0; 0]] tilted_box [V3 1 2 3; v0]) by (split; [reflexivity|]; split; [discriminate|intros H; discriminate H]).
  assert (D' : points_described [[1; 2; 0]] flat_box [V3 1 2 0]). { split; [reflexivity|]. split; [discriminate|]. intros _ v [<-|[]]. cbn. rewrite Rabs_R0. lra. }
  assert (PL : planar flat_box) by (intros _; split; reflexivity).
  split; [|split; [|split; [|split]]].
  - apply ds_pair; auto. apply bd_dict; auto. repeat split; try (left; reflexivity). right. split; reflexivity.
  - apply (ds_gsd3 _ tilted_box); auto.
  - apply (ds_gsd2 1 7 7 _ flat_box); auto.
  - assert (E := ds_ovito _ flat_box _ F' PL D'). cbn in E. replace (1 / 2 * 8) with 4 in E by lra. replace (0 * 0) with 0 in E by ring. exact E.
  - apply (ds_hoomd2 (Some 1) None None _ flat_box); auto.
Qed.
Example C83_matrix_case : triple (V3 0 4 0) (V3 (-2) 0 0) (V3 0 0 3) > 0 /\ triple (V3 4 0 0) (V3 0 (-2) 0) (V3 0 0 3) < 0 /\ triple (V3 1 1 0) (V3 0 1 1) (V3 1 0 1) > 0.
Proof. unfold triple, dot, cross. cbn [vx vy vz]. repeat split; lra. Qed.
Example C83_mda_case : positive tilted_box /\ consistent tilted_box /\ fully_periodic tilted_box /\ b_2d tilted_box = false /\ ~ untilted tilted_box /\
  points_described [[1; 2; 3]] tilted_box [V3 1 2 3].
Proof.
  split; [apply C83_case|]. split; [reflexivity|]. split; [repeat split|]. split; [reflexivity|]. split; [intros (H & _); cbn in H; lra|]. split; [reflexivity|]. split; [discriminate|intros H; discriminate H].
Qed.
Example C83_reject_case : box_of (SysPair (BLList [1; 2; 3; 4]) [[0; 0; 0]]) (BLList [1; 2; 3; 4]) /\ bad_box (BLList [1; 2; 3; 4]) /\
  rows_of (SysPair (BLList [1; 2]) [[0; 0; 1]]) [[0; 0; 1]] /\ exists b, convert_box (BLList [1; 2]) None = Some b /\ b_2d b = true.
Proof.
  split; [constructor|]. split; [left; exists [1; 2; 3; 4]; cbn; repeat split; discriminate|]. split; [constructor|].
  eexists. split; [|shelve]. unfold convert_box, from_box_like, from_list, finish_box, py_box. rewrite (Reqb_refl 0). cbn [Nat.eqb]. rewrite !(Reqb_neq _ 0) by lra. reflexivity. Unshelve. reflexivity.
Qed.
Print Assumptions C83_described.
Print Assumptions C83_agree.
Print Assumptions C83_matrix.
Print Assumptions C83_left_handed_refuted.
Print Assumptions C83_rotated_refuted.
Print Assumptions C83_mda.
Print Assumptions C83_dimensions.
Print Assumptions C83_dimensions_refuted.
Print Assumptions C83_points.
Print Assumptions C83_reject.
