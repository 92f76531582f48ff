(** The ready-made cells: values, neighbours in the infinite crystal, point sets. *)
From Verif Require Import BoxProofs BoxProofs2 MatchEnvProofs AABBProofs2 PresetProofs.
From Flocq Require Import Core.
From Coq Require Import Reals ZArith List Lra Lia Bool.
From Verif Require Import RBase PresetSpec.
Import ListNotations.
Open Scope R_scope.

(** ** Values *)
Lemma list2 x y basis : x <> 0 -> y <> 0 -> unit_cell (BLList [x; y]) basis = Some (mk_box x y 0 0 0 0 true, basis).
Proof.
  intros X Y. unfold unit_cell. cbn [from_box_like from_list]. unfold finish_box, py_box. destruct (Reqb_spec 0 0) as [_|E]; [|contradiction]. cbn [Nat.eqb]. destruct (Reqb_spec x 0); [contradiction|]. destruct (Reqb_spec y 0); [contradiction|]. reflexivity.
Qed.
Lemma list2_none x basis : unit_cell (BLList [x; 0]) basis = None.
Proof.
  unfold unit_cell. cbn [from_box_like from_list]. unfold finish_box, py_box. destruct (Reqb_spec 0 0) as [_|E]; [|contradiction]. cbn [Nat.eqb]. rewrite orb_true_r. reflexivity.
Qed.
Lemma list3 x y z basis : x <> 0 -> y <> 0 -> z <> 0 -> unit_cell (BLList [x; y; z]) basis = Some (mk_box x y z 0 0 0 false, basis).
Proof.
  intros X Y Z0. unfold unit_cell. cbn [from_box_like from_list]. unfold finish_box, py_box. destruct (Reqb_spec z 0) as [|_]; [contradiction|]. cbn [Nat.eqb]. destruct (Reqb_spec x 0); [contradiction|]. destruct (Reqb_spec y 0); [contradiction|]. destruct (Reqb_spec z 0); [contradiction|]. reflexivity.
Qed.
Lemma again Lx Ly Lz xy xz yz d basis : Lx <> 0 -> Ly <> 0 -> (d = false -> Lz <> 0) -> unit_cell (BLBox (mk_box Lx Ly Lz xy xz yz d)) basis = Some (mk_box Lx Ly Lz xy xz yz d, basis).
Proof.
  intros X Y Z0. unfold unit_cell. cbn [from_box_like]. unfold from_box, dimensions, py_box. destruct d; cbn.
  - destruct (Reqb_spec Lx 0); [contradiction|]. destruct (Reqb_spec Ly 0); [contradiction|]. reflexivity.
  - specialize (Z0 eq_refl). destruct (Reqb_spec Lx 0); [contradiction|]. destruct (Reqb_spec Ly 0); [contradiction|]. destruct (Reqb_spec Lz 0); [contradiction|]. reflexivity.
Qed.
Lemma deg90 : deg2rad 90 = PI / 2. Proof. unfold deg2rad. field. Qed.
Lemma deg120 : deg2rad 120 = 2 * (PI / 3). Proof. unfold deg2rad. field. Qed.
Lemma s3_pos : 0 < sqrt 3. Proof. apply sqrt_lt_R0. lra. Qed.
Lemma s3_sq : sqrt 3 * sqrt 3 = 3. Proof. apply sqrt_sqrt. lra. Qed.
Lemma s83_pos : 0 < sqrt (8 / 3). Proof. apply sqrt_lt_R0. lra. Qed.
Lemma s83_sq : sqrt (8 / 3) * sqrt (8 / 3) = 8 / 3. Proof. apply sqrt_sqrt. lra. Qed.
(** Right angles with the third vector. *)
Lemma angles_spec A C g : 0 < g < PI -> A <> 0 ->
  from_lengths_and_angles 1 A C (PI / 2) (PI / 2) g None = py_box 1 (Rabs A * sin g) (C * (A / Rabs A)) (A * cos g / (Rabs A * sin g)) 0 0 (Some (Reqb C 0)).
Proof.
  intros G NA. assert (PA : 0 < Rabs A) by (apply Rabs_pos_lt; exact NA). assert (HS : 0 < sin g) by (apply sin_gt_0; lra). assert (P := PI_RGT_0).
  unfold from_lengths_and_angles. assert (O1 : Rltb 0 (PI / 2) && Rltb (PI / 2) PI = true) by (apply andb_true_intro; split; apply Rltb_true; lra). assert (O2 : Rltb 0 g && Rltb g PI = true) by (apply andb_true_intro; split; apply Rltb_true; lra). rewrite O1, O2. cbn [negb orb].
  rewrite cos_PI2. replace ((0 - 0 * cos g) / sin g) with 0 by (field; lra). replace (1 - 0 ^ 2 - 0 ^ 2) with 1 by ring. rewrite (proj2 (Rltb_false 1 0)) by lra. rewrite sqrt_1.
  unfold from_matrix, dot, cross. cbn [vx vy vz]. replace (1 * 1 + 0 * 0 + 0 * 0) with 1 by ring. rewrite sqrt_1.
  assert (SQ : forall x, x = A * sin g * (A * sin g) -> sqrt x = Rabs A * sin g).
  { intros x ->. change (A * sin g * (A * sin g)) with (Rsqr (A * sin g)). rewrite sqrt_Rsqr_abs, Rabs_mult, (Rabs_right (sin g)) by lra. reflexivity. }
  rewrite (SQ (A * cos g * (A * cos g) + A * sin g * (A * sin g) + 0 * 0 - (1 * (A * cos g) + 0 * (A * sin g) + 0 * 0) / 1 * ((1 * (A * cos g) + 0 * (A * sin g) + 0 * 0) / 1))) by field.
  rewrite (SQ ((0 * 0 - 0 * (A * sin g)) * (0 * 0 - 0 * (A * sin g)) + (0 * (A * cos g) - 1 * 0) * (0 * (A * cos g) - 1 * 0) + (1 * (A * sin g) - 0 * (A * cos g)) * (1 * (A * sin g) - 0 * (A * cos g)))) by ring.
  replace ((C * 0 * (0 * 0 - 0 * (A * sin g)) + C * 0 * (0 * (A * cos g) - 1 * 0) + C * 1 * (1 * (A * sin g) - 0 * (A * cos g))) / (Rabs A * sin g)) with (C * (A / Rabs A)) by (field; split; lra).
  replace (if Reqb (C * (A / Rabs A)) 0 then 0 else (1 * (C * 0) + 0 * (C * 0) + 0 * (C * 1)) / 1 / (C * (A / Rabs A))) with 0.
  2:{ destruct (Reqb_spec (C * (A / Rabs A)) 0); [reflexivity|]. field. repeat split; try lra; intros E; apply n; rewrite E; field; lra. }
  replace (if Reqb (C * (A / Rabs A)) 0 then 0 else _) with 0.
  2:{ destruct (Reqb_spec (C * (A / Rabs A)) 0); [reflexivity|]. field. repeat split; try lra; intros E; apply n; rewrite E; field; lra. }
  replace ((1 * (A * cos g) + 0 * (A * sin g) + 0 * 0) / 1) with (A * cos g) by field. f_equal. destruct (Reqb C 0); reflexivity.
Qed.
Lemma angles_none A C g : g <= 0 \/ PI <= g -> from_lengths_and_angles 1 A C (PI / 2) (PI / 2) g None = None.
Proof.
  intros G. unfold from_lengths_and_angles. assert (P := PI_RGT_0). assert (O1 : Rltb 0 (PI / 2) && Rltb (PI / 2) PI = true) by (apply andb_true_intro; split; apply Rltb_true; lra). assert (O2 : Rltb 0 g && Rltb g PI = false).
  { destruct (Rltb_spec 0 g); [|reflexivity]. destruct (Rltb_spec g PI); [lra|reflexivity]. }
  rewrite O1, O2. reflexivity.
Qed.
Definition cube1 : box := mk_box 1 1 1 0 0 0 false.
Definition rect (a : R) : box := mk_box 1 a 0 0 0 0 true.
Definition hcp_box : box := mk_box 1 (sqrt 3 / 2) (sqrt (8 / 3)) (- 1 / 2 / (sqrt 3 / 2)) 0 0 false.
Definition preset_box (x : named) : box := match x with SC | BCC | FCC => cube1 | HCP => hcp_box | Square => rect 1 | Hex | Graphene => rect (sqrt 3) end.
Definition preset_basis (x : named) : list vec3 :=
  match x with
  | SC | Square => [V3 0 0 0]
  | BCC => [V3 (1 / 2) (1 / 2) (1 / 2); V3 0 0 0]
  | FCC => [V3 (1 / 2) (1 / 2) 0; V3 (1 / 2) 0 (1 / 2); V3 0 (1 / 2) (1 / 2); V3 0 0 0]
  | HCP => [V3 (1 / 3) (2 / 3) (1 / 4); V3 (2 / 3) (1 / 3) (3 / 4)]
  | Hex => [V3 0 0 0; V3 (1 / 2) (1 / 2) 0]
  | Graphene => [V3 0 0 0; V3 0 (1 / 3) 0; V3 (1 / 2) (5 / 6) 0; V3 (1 / 2) (1 / 2) 0]
  end.
Lemma hcp_value : uc_hcp = Some (hcp_box, preset_basis HCP).
Proof.
  unfold uc_hcp. rewrite deg90, deg120. assert (P := PI_RGT_0). assert (S := s3_pos). assert (S8 := s83_pos). rewrite angles_spec by lra. rewrite Rabs_R1.
  assert (C : cos (2 * (PI / 3)) = - 1 / 2) by (replace (2 * (PI / 3)) with (PI - PI / 3) by field; rewrite Rtrigo_facts.cos_pi_minus, cos_PI3; field).
  assert (SI : sin (2 * (PI / 3)) = sqrt 3 / 2) by (replace (2 * (PI / 3)) with (PI - PI / 3) by field; rewrite sin_PI_x, sin_PI3; field).
  rewrite C, SI. replace (1 * (sqrt 3 / 2)) with (sqrt 3 / 2) by ring. replace (sqrt (8 / 3) * (1 / 1)) with (sqrt (8 / 3)) by field. replace (1 * (- 1 / 2)) with (- 1 / 2) by ring.
  unfold py_box. destruct (Reqb_spec (sqrt (8 / 3)) 0); [lra|]. destruct (Reqb_spec 1 0); [lra|]. destruct (Reqb_spec (sqrt 3 / 2) 0); [lra|]. destruct (Reqb_spec (sqrt (8 / 3)) 0); [lra|]. cbn [orb]. apply again; try lra.
Qed.
Lemma preset_value x : preset x = Some (preset_box x, preset_basis x).
Proof.
  assert (S := s3_pos). destruct x; cbn [preset preset_box]; try exact hcp_value; (apply list3 || apply list2); lra.
Qed.
Lemma preset_positive x : positive (preset_box x).
Proof. assert (S := s3_pos). assert (S8 := s83_pos). destruct x; apply mk_box_positive; try lra. Qed.

(** ** Neighbours in the crystal, counted with whole numbers *)
Definition R5 : list Z := [-2; -1; 0; 1; 2]%Z.
Lemma R5_in i : In i R5 <-> (-2 <= i <= 2)%Z.
Proof. unfold R5. cbn [In]. lia. Qed.
Section whole.
Variables (b : box) (basis : list vec3) (D : Z) (zb : list (Z * Z * Z)) (Q : Z * Z * Z -> Z) (K q0 B : Z) (z : nat).
Hypothesis HD : (0 < D)%Z.
Hypothesis HK : (0 < K)%Z.
Hypothesis HB : (0 <= B)%Z.
Hypothesis Hzb : basis = map (fun t => V3 (IZR (cx t) / IZR D) (IZR (cy t) / IZR D) (IZR (cz t) / IZR D)) zb.
Hypothesis Hrange : forallb (fun t => (0 <=? cx t) && (cx t <? D) && (0 <=? cy t) && (cy t <? D) && (0 <=? cz t) && (cz t <? D))%Z zb = true.
Hypothesis HQ : forall t, (b_2d b = true -> cz t = 0%Z) -> norm (comb b (IZR (cx t) / IZR D) (IZR (cy t) / IZR D) (IZR (cz t) / IZR D)) = sqrt (IZR (Q t) / IZR K).
Hypothesis Hnear : forall t, (b_2d b = true -> cz t = 0%Z) -> (Q t < B)%Z -> (Z.abs (cx t) <= 2 * D /\ Z.abs (cy t) <= 2 * D /\ Z.abs (cz t) <= 2 * D)%Z.
Hypothesis Hflat : b_2d b = true -> forallb (fun t => cz t =? 0)%Z zb = true.
Hypothesis HQ0 : forall t, (b_2d b = true -> cz t = 0%Z) -> (0 <= Q t)%Z.
Definition apart (id : nat) (x : nat * (Z * Z * Z)) : Z * Z * Z :=
  let f := nth id zb (0, 0, 0)%Z in let f' := nth (fst x) zb (0, 0, 0)%Z in
  (cx f' - cx f + D * cx (snd x), cy f' - cy f + D * cy (snd x), cz f' - cz f + D * cz (snd x))%Z.
Definition same (x y : nat * (Z * Z * Z)) : bool := Nat.eqb (fst x) (fst y) && (cx (snd x) =? cx (snd y))%Z && (cy (snd x) =? cy (snd y))%Z && (cz (snd x) =? cz (snd y))%Z.
Definition found (id : nat) : list (nat * (Z * Z * Z)) :=
  filter (fun x => negb (same x (id, (0, 0, 0)%Z)) && (Q (apart id x) <? B)%Z) (list_prod (seq 0 (length zb)) (list_prod (list_prod R5 R5) (if b_2d b then [0%Z] else R5))).
Hypothesis Hcount : forallb (fun id => Nat.eqb (length (found id)) z && forallb (fun x => (Q (apart id x) =? q0)%Z) (found id)) (seq 0 (length zb)) = true.
Lemma same_true x y : same x y = true <-> x = y.
Proof.
  destruct x as [a [[i j] k]], y as [a' [[i' j'] k']]. unfold same, cx, cy, cz. cbn [fst snd]. rewrite !andb_true_iff, Nat.eqb_eq, !Z.eqb_eq. split; [intros (((-> & ->) & ->) & ->); reflexivity|]. intros E. injection E as -> -> -> ->. auto.
Qed.
Lemma basis_nth id : (id < length zb)%nat -> let t := nth id zb (0, 0, 0)%Z in nth id basis v0 = V3 (IZR (cx t) / IZR D) (IZR (cy t) / IZR D) (IZR (cz t) / IZR D) /\ (0 <= cx t < D /\ 0 <= cy t < D /\ 0 <= cz t < D)%Z /\ (b_2d b = true -> cz t = 0%Z).
Proof.
  intros H. cbn zeta. split; [|split].
  - rewrite Hzb. rewrite (nth_map_lt _ _ _ (0, 0, 0)%Z) by exact H. reflexivity.
  - rewrite forallb_forall in Hrange. specialize (Hrange _ (nth_In _ (0, 0, 0)%Z H)). rewrite !andb_true_iff in Hrange. rewrite !Z.leb_le, !Z.ltb_lt in Hrange. lia.
  - intros E. specialize (Hflat E). rewrite forallb_forall in Hflat. specialize (Hflat _ (nth_In _ (0, 0, 0)%Z H)). apply Z.eqb_eq in Hflat. exact Hflat.
Qed.
Lemma offset_norm id x : (id < length zb)%nat -> (fst x < length zb)%nat -> (b_2d b = true -> cz (snd x) = 0%Z) ->
  norm (offset b basis id x) = sqrt (IZR (Q (apart id x)) / IZR K) /\ (b_2d b = true -> cz (apart id x) = 0%Z).
Proof.
  intros H H' E0. destruct (basis_nth id H) as (E & _ & F). destruct (basis_nth (fst x) H') as (E' & _ & F'). cbn zeta in *. assert (FL : b_2d b = true -> cz (apart id x) = 0%Z) by (intros X; unfold apart; rewrite cz_t, (F X), (F' X), (E0 X); ring).
  split; [|exact FL]. rewrite <- (HQ _ FL). unfold offset. rewrite E, E'. cbn [vx vy vz]. unfold apart. rewrite cx_t, cy_t, cz_t, !plus_IZR, !minus_IZR, !mult_IZR. apply IZR_lt in HD. f_equal. f_equal; field; lra.
Qed.
Lemma below id x : (id < length zb)%nat -> (fst x < length zb)%nat -> (b_2d b = true -> cz (snd x) = 0%Z) -> (norm (offset b basis id x) < sqrt (IZR B / IZR K) <-> (Q (apart id x) < B)%Z).
Proof.
  intros H H' E0. destruct (offset_norm id x H H' E0) as [-> FL]. assert (KP : 0 < IZR K) by (apply IZR_lt; exact HK). assert (N0 := HQ0 _ FL). apply IZR_le in N0. assert (B0 := HB). apply IZR_le in B0.
  assert (I : 0 < / IZR K) by (apply Rinv_0_lt_compat; exact KP). split; intros X.
  - apply sqrt_lt_0_alt in X. apply lt_IZR. unfold Rdiv in X. apply (Rmult_lt_reg_r (/ IZR K)); assumption.
  - apply sqrt_lt_1_alt. split; [apply Rmult_le_pos; lra|]. apply IZR_lt in X. unfold Rdiv. apply Rmult_lt_compat_r; assumption.
Qed.
Lemma shell_whole : shell b basis z (sqrt (IZR q0 / IZR K)) (sqrt (IZR B / IZR K)).
Proof.
  intros id Hid. assert (LB : length basis = length zb) by (rewrite Hzb; apply map_length). rewrite LB in Hid. rewrite forallb_forall in Hcount. specialize (Hcount id). assert (Ii : In id (seq 0 (length zb))) by (apply in_seq; lia). specialize (Hcount Ii). apply andb_true_iff in Hcount as [C1 C2]. apply Nat.eqb_eq in C1.
  assert (IN : forall x, In x (found id) <-> near_site b basis id (sqrt (IZR B / IZR K)) x).
  { intros x. unfold found. rewrite filter_In. destruct x as [id' [[i j] k]]. rewrite !in_prod_iff, in_seq, andb_true_iff, negb_true_iff, Z.ltb_lt. unfold near_site. rewrite LB. cbn [fst snd]. rewrite cz_t.
    assert (SM : same (id', (i, j, k)) (id, (0, 0, 0)%Z) = false <-> (id', (i, j, k)) <> (id, (0, 0, 0)%Z)) by (rewrite <- not_true_iff_false, same_true; reflexivity). rewrite SM. split.
    - intros ((L & (_ & _) & Kk) & NE & QB). assert (K0 : b_2d b = true -> k = 0%Z) by (intros E; rewrite E in Kk; destruct Kk as [<-|[]]; reflexivity). repeat split; try assumption; [lia|]. apply (below id (id', (i, j, k))); cbn [fst snd]; try assumption. lia.
    - intros (L & K0 & NE & NB). assert (QB : (Q (apart id (id', (i, j, k))) < B)%Z) by (apply (below id (id', (i, j, k))); assumption).
      destruct (offset_norm id (id', (i, j, k)) Hid L K0) as [_ FL]. destruct (Hnear _ FL QB) as (A1 & A2 & A3). destruct (basis_nth id Hid) as (_ & (R1 & R2 & R3) & _). destruct (basis_nth id' L) as (_ & (R1' & R2' & R3') & _). cbn zeta in *.
      unfold apart in A1, A2, A3. cbn [fst snd] in A1, A2, A3. rewrite ?cx_t, ?cy_t, ?cz_t in A1, A2, A3. assert (I1 : (-2 <= i <= 2)%Z) by (rewrite !cx_t in A1; nia). assert (I2 : (-2 <= j <= 2)%Z) by (rewrite !cy_t in A2; nia). assert (I3 : (-2 <= k <= 2)%Z) by (rewrite !cz_t in A3; nia).
      repeat split; try assumption; try lia; try (apply R5_in; assumption). destruct (b_2d b); [left; symmetry; apply K0; reflexivity|apply R5_in; exact I3]. }
  exists (found id). split; [|split; [exact C1|split; [exact IN|]]].
  - unfold found. apply NoDup_filter. assert (N5 : NoDup R5) by (unfold R5; repeat constructor; cbn; intuition discriminate).
    assert (NP : forall (A0 B0 : Type) (l : list A0) (l' : list B0), NoDup l -> NoDup l' -> NoDup (list_prod l l')).
    { intros A0 B0 l l' Nl Nl'. induction Nl as [|x l NI Nl IH]; [constructor|]. cbn [list_prod]. apply AABBProofs2.NoDup_app_intro.
      - apply FinFun.Injective_map_NoDup; [intros y y' E; congruence|exact Nl'].
      - exact IH.
      - intros y Y1 Y2. apply in_map_iff in Y1 as (y' & <- & _). apply in_prod_iff in Y2 as [Y2 _]. contradiction. }
    apply NP; [apply seq_NoDup|]. apply NP; [apply NP; exact N5|]. destruct (b_2d b); [repeat constructor; intros []|exact N5].
  - intros x Hx. rewrite forallb_forall in C2. specialize (C2 x Hx). apply Z.eqb_eq in C2. apply IN in Hx. destruct Hx as (L & K0 & _ & _). rewrite LB in L. destruct (offset_norm id x Hid L K0) as [-> _]. rewrite C2. reflexivity.
Qed.
End whole.
(** ** The seven crystals *)
Ltac vecs := cbn [map]; repeat (apply f_equal2; [apply vec_eq; cbn [vx vy vz cx cy cz fst snd]; lra|]); reflexivity.
Ltac forms := intros [[x y] z]; unfold cx, cy, cz; cbn [fst snd].
Lemma cube_norm x y z : norm (comb cube1 x y z) = sqrt (x * x + y * y + z * z).
Proof. unfold norm, dot, comb, a1, a2, a3, cube1, mk_box. cbn. f_equal. ring. Qed.
Lemma rect_norm a x y z : norm (comb (rect a) x y z) = sqrt (x * x + (a * a) * (y * y)).
Proof. unfold norm, dot, comb, a1, a2, a3, rect, mk_box. cbn. f_equal. ring. Qed.
Lemma hcp_norm x y z : norm (comb hcp_box x y z) = sqrt (x * x - x * y + y * y + 8 / 3 * (z * z)).
Proof.
  assert (S := s3_pos). assert (S2 := s3_sq). assert (S8 := s83_sq). unfold norm, dot, comb, a1, a2, a3, hcp_box, mk_box. cbn. f_equal. set (s := sqrt 3) in *. set (c := sqrt (8 / 3)) in *.
  replace (x * x - x * y + y * y + 8 / 3 * (z * z)) with ((x - y / 2) * (x - y / 2) + 3 / 4 * (y * y) + 8 / 3 * (z * z)) by field. rewrite <- S8. replace (3 / 4) with (s * s / 4) by (rewrite S2; field). field. lra.
Qed.
Definition cube_form (t : Z * Z * Z) : Z := (cx t * cx t + cy t * cy t + cz t * cz t)%Z.
Definition hex_form (t : Z * Z * Z) : Z := (cx t * cx t + 3 * (cy t * cy t))%Z.
Definition hcp_form (t : Z * Z * Z) : Z := (3 * (cx t * cx t) - 3 * (cx t * cy t) + 3 * (cy t * cy t) + 8 * (cz t * cz t))%Z.
Lemma preset_shell x : shell (preset_box x) (preset_basis x) (neighbours_of x) (sqrt (nearest_square x)) (sqrt (second_square x)).
Proof.
  destruct x; cbn [preset_box preset_basis neighbours_of nearest_square second_square].
  - replace (sqrt 1) with (sqrt (IZR 1 / IZR 1)) by (f_equal; lra). replace (sqrt 2) with (sqrt (IZR 2 / IZR 1)) by (f_equal; lra). apply shell_whole with (D := 1%Z) (zb := [(0, 0, 0)%Z]) (Q := cube_form); try lia; try reflexivity; try discriminate.
    + vecs.
    + forms. intros _. rewrite cube_norm. f_equal. unfold cube_form, cx, cy, cz. cbn [fst snd]. rewrite !plus_IZR, !mult_IZR. field.
    + forms. intros _. unfold cube_form, cx, cy, cz. cbn [fst snd]. nia.
    + forms. intros _. unfold cube_form, cx, cy, cz. cbn [fst snd]. nia.
  - replace (3 / 4) with (IZR 3 / IZR 4) by lra. replace (sqrt 1) with (sqrt (IZR 4 / IZR 4)) by (f_equal; lra). apply shell_whole with (D := 2%Z) (zb := [(1, 1, 1); (0, 0, 0)]%Z) (Q := cube_form); try lia; try reflexivity; try discriminate.
    + vecs.
    + forms. intros _. rewrite cube_norm. f_equal. unfold cube_form, cx, cy, cz. cbn [fst snd]. rewrite !plus_IZR, !mult_IZR. field.
    + forms. intros _. unfold cube_form, cx, cy, cz. cbn [fst snd]. nia.
    + forms. intros _. unfold cube_form, cx, cy, cz. cbn [fst snd]. nia.
  - replace (1 / 2) with (IZR 2 / IZR 4) by lra. replace (sqrt 1) with (sqrt (IZR 4 / IZR 4)) by (f_equal; lra). apply shell_whole with (D := 2%Z) (zb := [(1, 1, 0); (1, 0, 1); (0, 1, 1); (0, 0, 0)]%Z) (Q := cube_form); try lia; try reflexivity; try discriminate.
    + vecs.
    + forms. intros _. rewrite cube_norm. f_equal. unfold cube_form, cx, cy, cz. cbn [fst snd]. rewrite !plus_IZR, !mult_IZR. field.
    + forms. intros _. unfold cube_form, cx, cy, cz. cbn [fst snd]. nia.
    + forms. intros _. unfold cube_form, cx, cy, cz. cbn [fst snd]. nia.
  - replace (sqrt 1) with (sqrt (IZR 432 / IZR 432)) by (f_equal; lra). replace (sqrt 2) with (sqrt (IZR 864 / IZR 432)) by (f_equal; lra). apply shell_whole with (D := 12%Z) (zb := [(4, 8, 3); (8, 4, 9)]%Z) (Q := hcp_form); try lia; try reflexivity; try discriminate.
    + vecs.
    + forms. intros _. rewrite hcp_norm. f_equal. unfold hcp_form, cx, cy, cz. cbn [fst snd]. rewrite !plus_IZR, minus_IZR, !mult_IZR. field.
    + forms. intros _. unfold hcp_form, cx, cy, cz. cbn [fst snd]. intros H.
      assert (H1 : (9 * (x * x) + 3 * ((2 * y - x) * (2 * y - x)) + 32 * (z * z) < 3456)%Z) by lia. assert (H2 : (9 * (y * y) + 3 * ((2 * x - y) * (2 * x - y)) + 32 * (z * z) < 3456)%Z) by lia.
      assert (P1 := Z.square_nonneg (2 * y - x)). assert (P2 := Z.square_nonneg (2 * x - y)). repeat split; nia.
    + forms. intros _. unfold hcp_form, cx, cy, cz. cbn [fst snd]. assert (P1 := Z.square_nonneg (2 * y - x)). nia.
  - replace (sqrt 1) with (sqrt (IZR 1 / IZR 1)) by (f_equal; lra). replace (sqrt 2) with (sqrt (IZR 2 / IZR 1)) by (f_equal; lra). apply shell_whole with (D := 1%Z) (zb := [(0, 0, 0)%Z]) (Q := cube_form); try lia; try reflexivity; try discriminate.
    + vecs.
    + forms. intros E. specialize (E eq_refl). subst z. rewrite rect_norm. f_equal. unfold cube_form, cx, cy, cz. cbn [fst snd]. rewrite !plus_IZR, !mult_IZR. field.
    + forms. intros _. unfold cube_form, cx, cy, cz. cbn [fst snd]. nia.
    + forms. intros _. unfold cube_form, cx, cy, cz. cbn [fst snd]. nia.
  - replace (sqrt 1) with (sqrt (IZR 4 / IZR 4)) by (f_equal; lra). replace (sqrt 3) with (sqrt (IZR 12 / IZR 4)) at 2 by (f_equal; lra). apply shell_whole with (D := 2%Z) (zb := [(0, 0, 0); (1, 1, 0)]%Z) (Q := hex_form); try lia; try reflexivity; try discriminate.
    + vecs.
    + forms. intros E. specialize (E eq_refl). subst z. rewrite rect_norm, s3_sq. f_equal. unfold hex_form, cx, cy, cz. cbn [fst snd]. rewrite !plus_IZR, !mult_IZR. field.
    + forms. intros E. specialize (E eq_refl). subst z. unfold hex_form, cx, cy, cz. cbn [fst snd]. nia.
    + forms. intros _. unfold hex_form, cx, cy, cz. cbn [fst snd]. nia.
  - replace (sqrt (1 / 3)) with (sqrt (IZR 12 / IZR 36)) by (f_equal; lra). replace (sqrt 1) with (sqrt (IZR 36 / IZR 36)) by (f_equal; lra). apply shell_whole with (D := 6%Z) (zb := [(0, 0, 0); (0, 2, 0); (3, 5, 0); (3, 3, 0)]%Z) (Q := hex_form); try lia; try reflexivity; try discriminate.
    + vecs.
    + forms. intros E. specialize (E eq_refl). subst z. rewrite rect_norm, s3_sq. f_equal. unfold hex_form, cx, cy, cz. cbn [fst snd]. rewrite !plus_IZR, !mult_IZR. field.
    + forms. intros E. specialize (E eq_refl). subst z. unfold hex_form, cx, cy, cz. cbn [fst snd]. nia.
    + forms. intros _. unfold hex_form, cx, cy, cz. cbn [fst snd]. nia.
Qed.
(** ** Point sets *)
Lemma cube_comb x y z : comb cube1 x y z = V3 x y z.
Proof. unfold comb, a1, a2, a3, cube1, mk_box. apply vec_eq; cbn; ring. Qed.
Lemma rect_comb a x y z : comb (rect a) x y z = V3 x (a * y) 0.
Proof. unfold comb, a1, a2, a3, rect, mk_box. apply vec_eq; cbn; ring. Qed.
Lemma hcp_comb x y z : comb hcp_box x y z = V3 (x - y / 2) (sqrt 3 / 2 * y) (sqrt (8 / 3) * z).
Proof. assert (S := s3_pos). unfold comb, a1, a2, a3, hcp_box, mk_box. apply vec_eq; cbn; field; lra. Qed.
Lemma s83 : sqrt (8 / 3) = 2 * sqrt (2 / 3).
Proof. replace (8 / 3) with (2 * 2 * (2 / 3)) by field. rewrite sqrt_mult, sqrt_square by lra. reflexivity. Qed.
Lemma half z : exists a, (z = 2 * a \/ z = 2 * a + 1)%Z.
Proof. exists (z / 2)%Z. assert (H := Z.div_mod z 2 ltac:(lia)). assert (H' := Z.mod_pos_bound z 2 ltac:(lia)). lia. Qed.
Ltac site f i j k := exists f, i%Z, j%Z, k%Z; split; [cbn; tauto|split; [intros; try discriminate; try reflexivity|]].
Lemma preset_points x p : crystal (preset_box x) (preset_basis x) p <-> structure x p.
Proof.
  assert (S3 := s3_pos). destruct x; cbn [preset_box preset_basis structure]; split.
  - intros (f & i & j & k & [<-|[]] & _ & ->). rewrite cube_comb. exists i, j, k. apply vec_eq; cbn [vx vy vz]; ring.
  - intros (x & y & z & ->). site (V3 0 0 0) x y z. rewrite cube_comb. apply vec_eq; cbn [vx vy vz]; ring.
  - intros (f & i & j & k & [<-|[<-|[]]] & _ & ->); rewrite cube_comb.
    + exists (2 * i + 1)%Z, (2 * j + 1)%Z, (2 * k + 1)%Z. split; [apply Z.even_spec; exists (i - j)%Z; ring|]. split; [apply Z.even_spec; exists (j - k)%Z; ring|]. apply vec_eq; cbn [vx vy vz]; rewrite plus_IZR, mult_IZR; field.
    + exists (2 * i)%Z, (2 * j)%Z, (2 * k)%Z. split; [apply Z.even_spec; exists (i - j)%Z; ring|]. split; [apply Z.even_spec; exists (j - k)%Z; ring|]. apply vec_eq; cbn [vx vy vz]; rewrite mult_IZR; field.
  - intros (x & y & z & E1 & E2 & ->). apply Z.even_spec in E1 as [a E1]. apply Z.even_spec in E2 as [c E2]. destruct (half x) as (i & [Hi|Hi]); destruct (half y) as (j & [Hj|Hj]); try lia; destruct (half z) as (k & [Hk|Hk]); try lia; subst x y z.
    + site (V3 0 0 0) i j k. rewrite cube_comb. apply vec_eq; cbn [vx vy vz]; rewrite mult_IZR; field.
    + site (V3 (1 / 2) (1 / 2) (1 / 2)) i j k. rewrite cube_comb. apply vec_eq; cbn [vx vy vz]; rewrite plus_IZR, mult_IZR; field.
  - intros (f & i & j & k & [<-|[<-|[<-|[<-|[]]]]] & _ & ->); rewrite cube_comb.
    + exists (2 * i + 1)%Z, (2 * j + 1)%Z, (2 * k)%Z. split; [apply Z.even_spec; exists (i + j + k + 1)%Z; ring|]. apply vec_eq; cbn [vx vy vz]; rewrite ?plus_IZR, mult_IZR; field.
    + exists (2 * i + 1)%Z, (2 * j)%Z, (2 * k + 1)%Z. split; [apply Z.even_spec; exists (i + j + k + 1)%Z; ring|]. apply vec_eq; cbn [vx vy vz]; rewrite ?plus_IZR, mult_IZR; field.
    + exists (2 * i)%Z, (2 * j + 1)%Z, (2 * k + 1)%Z. split; [apply Z.even_spec; exists (i + j + k + 1)%Z; ring|]. apply vec_eq; cbn [vx vy vz]; rewrite ?plus_IZR, mult_IZR; field.
    + exists (2 * i)%Z, (2 * j)%Z, (2 * k)%Z. split; [apply Z.even_spec; exists (i + j + k)%Z; ring|]. apply vec_eq; cbn [vx vy vz]; rewrite ?plus_IZR, mult_IZR; field.
  - intros (x & y & z & E1 & ->). apply Z.even_spec in E1 as [a E1]. destruct (half x) as (i & [Hi|Hi]); destruct (half y) as (j & [Hj|Hj]); destruct (half z) as (k & [Hk|Hk]); try lia; subst x y z.
    + site (V3 0 0 0) i j k. rewrite cube_comb. apply vec_eq; cbn [vx vy vz]; rewrite ?plus_IZR, mult_IZR; field.
    + site (V3 0 (1 / 2) (1 / 2)) i j k. rewrite cube_comb. apply vec_eq; cbn [vx vy vz]; rewrite ?plus_IZR, mult_IZR; field.
    + site (V3 (1 / 2) 0 (1 / 2)) i j k. rewrite cube_comb. apply vec_eq; cbn [vx vy vz]; rewrite ?plus_IZR, mult_IZR; field.
    + site (V3 (1 / 2) (1 / 2) 0) i j k. rewrite cube_comb. apply vec_eq; cbn [vx vy vz]; rewrite ?plus_IZR, mult_IZR; field.
  - intros (f & i & j & k & [<-|[<-|[]]] & _ & ->); rewrite hcp_comb, s83.
    + exists (2 * k)%Z. cbn zeta. rewrite Z.even_mul. cbn [Z.even orb]. exists (i - j)%Z, j. apply vec_eq; cbn [vx vy vz]; rewrite ?minus_IZR, ?mult_IZR; field.
    + exists (2 * k + 1)%Z. cbn zeta. rewrite Z.even_add, Z.even_mul. cbn [Z.even orb Bool.eqb]. exists (i - j)%Z, j. apply vec_eq; cbn [vx vy vz]; rewrite ?plus_IZR, ?minus_IZR, ?mult_IZR; field.
  - intros (n & H). cbn zeta in H. destruct (half n) as (k & [-> | ->]).
    + rewrite Z.even_mul in H. cbn [Z.even orb] in H. destruct H as (i & j & ->). site (V3 (1 / 3) (2 / 3) (1 / 4)) (i + j)%Z j k. rewrite hcp_comb, s83. apply vec_eq; cbn [vx vy vz]; rewrite ?plus_IZR, ?mult_IZR; field.
    + rewrite Z.even_add, Z.even_mul in H. cbn [Z.even orb Bool.eqb] in H. destruct H as (i & j & ->). site (V3 (2 / 3) (1 / 3) (3 / 4)) (i + j)%Z j k. rewrite hcp_comb, s83. apply vec_eq; cbn [vx vy vz]; rewrite ?plus_IZR, ?mult_IZR; field.
  - intros (f & i & j & k & [<-|[]] & _ & ->). rewrite rect_comb. exists i, j. apply vec_eq; cbn [vx vy vz]; ring.
  - intros (x & y & ->). site (V3 0 0 0) x y 0%Z. rewrite rect_comb. apply vec_eq; cbn [vx vy vz]; ring.
  - intros (f & i & j & k & [<-|[<-|[]]] & _ & ->); rewrite rect_comb.
    + exists (i - j)%Z, (2 * j)%Z. apply vec_eq; cbn [vx vy vz]; rewrite ?minus_IZR, ?mult_IZR; field.
    + exists (i - j)%Z, (2 * j + 1)%Z. apply vec_eq; cbn [vx vy vz]; rewrite ?plus_IZR, ?minus_IZR, ?mult_IZR; field.
  - intros (i & j' & ->). destruct (half j') as (j & [-> | ->]).
    + site (V3 0 0 0) (i + j)%Z j 0%Z. rewrite rect_comb. apply vec_eq; cbn [vx vy vz]; rewrite ?plus_IZR, ?mult_IZR; field.
    + site (V3 (1 / 2) (1 / 2) 0) (i + j)%Z j 0%Z. rewrite rect_comb. apply vec_eq; cbn [vx vy vz]; rewrite ?plus_IZR, ?mult_IZR; field.
  - intros (f & i & j & k & [<-|[<-|[<-|[<-|[]]]]] & _ & ->); rewrite rect_comb.
    + left. exists (i - j)%Z, (2 * j)%Z. apply vec_eq; cbn [vx vy vz]; rewrite ?minus_IZR, ?mult_IZR; field.
    + right. exists (i - j)%Z, (2 * j)%Z. apply vec_eq; cbn [vx vy vz]; rewrite ?minus_IZR, ?mult_IZR; field.
    + right. exists (i - j)%Z, (2 * j + 1)%Z. apply vec_eq; cbn [vx vy vz]; rewrite ?plus_IZR, ?minus_IZR, ?mult_IZR; field.
    + left. exists (i - j)%Z, (2 * j + 1)%Z. apply vec_eq; cbn [vx vy vz]; rewrite ?plus_IZR, ?minus_IZR, ?mult_IZR; field.
  - intros [(i & j' & ->)|(i & j' & ->)]; destruct (half j') as (j & [-> | ->]).
    + site (V3 0 0 0) (i + j)%Z j 0%Z. rewrite rect_comb. apply vec_eq; cbn [vx vy vz]; rewrite ?plus_IZR, ?mult_IZR; field.
    + site (V3 (1 / 2) (1 / 2) 0) (i + j)%Z j 0%Z. rewrite rect_comb. apply vec_eq; cbn [vx vy vz]; rewrite ?plus_IZR, ?mult_IZR; field.
    + site (V3 0 (1 / 3) 0) (i + j)%Z j 0%Z. rewrite rect_comb. apply vec_eq; cbn [vx vy vz]; rewrite ?plus_IZR, ?mult_IZR; field.
    + site (V3 (1 / 2) (5 / 6) 0) (i + j)%Z j 0%Z. rewrite rect_comb. apply vec_eq; cbn [vx vy vz]; rewrite ?plus_IZR, ?mult_IZR; field.
Qed.
