(** C90: generated crystals of different sizes; cases. *)
From Coq Require Import Reals ZArith List Permutation Lia Lra Psatz.
From Verif Require Import UnitCellSpec UnitCellProps.
From Verif Require Import FilterProps BoxProofs BoxProps AABBProofs2 AABBProps LinkCellProps QueryProps RdfProps ParProofs SymmProofs SymmProps SymmProps2 SuperProofs SuperProps.
From Verif Require Import SuperSpec.
From Verif Require Import BoxSpec QueryArgSpec QuerySpec RdfShell.
Import ListNotations.
Local Open Scope R_scope.

Lemma finite_choice {A} (d : A) (P : nat -> A -> Prop) n : (forall i, (i < n)%nat -> exists x, P i x) -> exists h, forall i, (i < n)%nat -> P i (h i).
Proof.
  induction n as [|n IH]; intros H; [exists (fun _ => d); intros; lia|]. destruct IH as (h & Hh); [intros; apply H; lia|]. destruct (H n) as (x & Hx); [lia|].
  exists (fun i => if Nat.eqb i n then x else h i). intros i Hi. destruct (Nat.eqb_spec i n) as [->|N]; auto. apply Hh. lia.
Qed.
Lemma seq_mul {A} (h : nat -> A) n c : map h (seq 0 (n * c)) = flat_map (fun i => map (fun q => h (i * c + q)%nat) (seq 0 c)) (seq 0 n).
Proof.
  induction n as [|n IH]; [reflexivity|]. replace (S n * c)%nat with (n * c + c)%nat by lia. rewrite seq_app, map_app, IH. rewrite (seq_S n 0), flat_map_app. f_equal. simpl. rewrite app_nil_r.
  generalize (n * c)%nat as m. intros m. assert (G : forall s, map h (seq (m + s) c) = map (fun q => h (m + q)%nat) (seq s c)); [|specialize (G 0%nat); rewrite Nat.add_0_r in G; exact G].
  clear. induction c as [|c IH]; intros s; simpl; auto. f_equal. replace (S (m + s)) with (m + S s)%nat by lia. apply IH.
Qed.
Definition step (k w : Z * Z * Z) : Z * Z * Z := let '(x, y, z) := k in let '(i, j, l) := w in (x + i, y + j, z + l)%Z.
(** Displaced by any lattice vector, the copies of a block are the copies of the block. *)
Lemma block_moved n w : (let '(nx, ny, nz) := n in (0 < nx /\ 0 < ny /\ 0 < nz)%Z) -> Permutation (map (fun c => copy_of n (step c w)) (block n)) (block n).
Proof.
  intros P. apply NoDup_Permutation_bis.
  - apply map_nodup; [apply block_nodup|]. destruct n as [[nx ny] nz], w as [[i j] l]. intros [[x y] z] [[x' y'] z'] H H' E. apply block_in in H, H'. unfold copy_of, step in E. injection E as E1 E2 E3.
    assert (Q : forall m u v s, (0 <= u < m)%Z -> (0 <= v < m)%Z -> ((u + s) mod m = (v + s) mod m)%Z -> u = v).
    { intros m u v s Hu Hv E. assert (D : ((u - v) mod m = 0)%Z) by (replace (u - v)%Z with ((u + s) - (v + s))%Z by lia; rewrite Zminus_mod, E, Z.sub_diag; apply Zmod_0_l). apply Z.mod_divide in D as (q & D); [|lia]. assert (q = 0)%Z by nia. nia. }
    f_equal; [f_equal|]; eapply Q; try eassumption; tauto.
  - rewrite map_length. apply le_n.
  - intros x Hx. apply in_map_iff in Hx as ([[x1 y1] z1] & <- & _). destruct n as [[nx ny] nz], w as [[i j] l]. destruct P as (X & Y & Z). unfold copy_of, step. apply block_in. repeat split; apply Z.mod_pos_bound; lia.
Qed.
Lemma prod_blocks {A B C} (l : list A) (m : list B) (g : A -> B -> A * C) (u : list C) :
  (forall x, In x l -> Permutation (map (g x) m) (map (fun c => (x, c)) u)) -> Permutation (flat_map (fun x => map (g x) m) l) (list_prod l u).
Proof. induction l as [|x l IH]; intros H; simpl; auto. apply Permutation_app; [apply H; simpl; auto|apply IH; intros; apply H; simpl; auto]. Qed.

Theorem C90_generate b basis r1 r n scale bx ps bx' ps' : positive b ->
  requests b r1 (1, 1, 1)%Z -> requests b r n -> uc_generate b basis r1 scale None = Some (bx, ps) -> uc_generate b basis r scale None = Some (bx', ps') ->
  positive bx /\ fully_periodic bx /\ positive bx' /\ super_box n bx bx' /\ (forall x, In x ps -> in_cell bx x) /\ (forall x, In x ps' -> in_cell bx' x) /\
  exists t f k, replicated n bx bx' t f k ps ps'.
Proof.
  intros Hb R1 Rn E1 En. assert (HN : forall i, in_space b (moved None i)) by (intros i X; reflexivity).
  destruct (generate_some b basis r1 scale None Hb HN _ bx ps R1 E1) as (S & EB1 & _). destruct (generate_some b basis r scale None Hb HN n bx' ps' Rn En) as (_ & EBn & _).
  destruct (requests_pos b r1 _ R1) as [P1 _]. destruct (requests_pos b r n Rn) as [Pn Qn].
  assert (PB : positive bx) by (rewrite EB1; apply mul_positive; assumption). assert (PB' : positive bx') by (rewrite EBn; apply mul_positive; assumption).
  assert (SC := mul_scaled b Hb _ scale P1 S). rewrite <- EB1 in SC. assert (SC' := mul_scaled b Hb n scale Pn S). rewrite <- EBn in SC'.
  assert (FP : fully_periodic bx) by apply SC. destruct n as [[nx ny] nz]. cbn [fst snd] in Pn. cbn beta iota in SC, SC'.
  assert (SB : super_box (nx, ny, nz) bx bx').
  { destruct SC as (_ & A1 & A2 & A3 & A4 & A5 & A6 & A7 & A8), SC' as (_ & B1 & B2 & B3 & B4 & B5 & B6 & B7 & B8). unfold super_box. rewrite A1, A2, A3, A4, A5, A6, A7, B1, B2, B3, B4, B5, B6, B7. repeat split; try apply B8; try tauto; try ring. }
  destruct (C64_count b basis r1 scale None Hb HN _ bx ps R1 E1) as [L1 _]. destruct (C64_count b basis r scale None Hb HN _ bx' ps' Rn En) as [Ln _].
  destruct (C64_points b basis r1 scale None Hb HN _ bx ps R1 E1) as [I1 V1]. destruct (C64_points b basis r scale None Hb HN _ bx' ps' Rn En) as [In' Vn].
  change (length (cells (1, 1, 1)%Z)) with 1%nat in *. assert (LB : length ps = length basis) by lia.
  assert (IC : forall B x, UnitCellSpec.in_cell B x -> in_cell B x) by (intros B x (s & t & u & E & H1 & H2 & H3); exists s, t, u; split; [exact E|]; repeat split; intros; lra || (apply H3; assumption) || (apply Rlt_le, H3; assumption)).
  split; [exact PB|]. split; [exact FP|]. split; [exact PB'|]. split; [exact SB|]. split; [auto|]. split; [auto|].
  assert (D2 : b_2d bx = b_2d b) by apply SC. assert (SH : forall i j k, vscale scale (BoxSpec.shift b i j k) = BoxSpec.shift bx i j k).
  { intros i j k. destruct SC as (_ & A1 & A2 & A3 & A4 & A5 & A6 & _). unfold BoxSpec.shift, comb, a1, a2, a3. rewrite A1, A2, A3, A4, A5, A6. vec_ext; ring. }
  set (t := vscale scale (displacement b (nx, ny, nz))). set (c := length (cells (nx, ny, nz))) in *. set (raw := fun id => vscale scale (let p := nth id basis v0 in cell_point b (vx p) (vy p) (vz p))).
  destruct (finite_choice (0, 0, 0)%Z (fun id w => raw id = vadd (nth id ps v0) (move bx w) /\ (b_2d bx = true -> snd w = 0%Z)) (length basis)) as (w & Hw).
  { intros id Hid. specialize (V1 id 0%nat Hid ltac:(lia)). cbn beta zeta in V1. replace (id * 1 + 0)%nat with id in V1 by lia. destruct V1 as (i & j & k & (_ & _ & _ & A) & E). exists (- i, - j, - k)%Z. split; [|intros D; simpl; rewrite (A D); reflexivity].
    rewrite E. unfold raw. change (nth 0 (cells (1, 1, 1)%Z) (0, 0, 0)%Z) with (0, 0, 0)%Z. unfold site, moved, displacement, parity, move. cbv zeta. simpl Z.even. cbn iota. unfold BoxSpec.shift, comb. rewrite !opp_IZR. vec_ext; ring. }
  set (f := fun m => (m / c)%nat). set (k := fun m => step (nth (m mod c) (cells (nx, ny, nz)) (0, 0, 0)%Z) (w (m / c)%nat)).
  assert (EC : cells (nx, ny, nz) = block (nx, ny, nz)) by reflexivity. assert (C0 : c = copies_number (nx, ny, nz)) by (unfold c; rewrite EC; apply block_length; auto).
  assert (CP : (0 < c)%nat) by (rewrite C0; unfold copies_number; nia).
  assert (DM : forall m, (m < length ps')%nat -> (m / c < length basis)%nat /\ (m mod c < c)%nat /\ m = (m / c * c + m mod c)%nat).
  { intros m Hm. rewrite Ln in Hm. split; [apply Nat.div_lt_upper_bound; lia|]. split; [apply Nat.mod_upper_bound; lia|]. rewrite (Nat.div_mod m c) at 1 by lia. lia. }
  exists t, f, k. split; [|split].
  - intros m Hm. destruct (DM m Hm) as (Hid & Hq & EM). specialize (Vn _ _ Hid Hq). cbv zeta in Vn. rewrite <- EM in Vn. destruct (Hw _ Hid) as [Hr _].
    replace (vadd (vadd (nth (f m) ps v0) t) (move bx (k m))) with (vadd (vscale scale (site b (displacement b (nx, ny, nz)) (nth (m / c) basis v0) (nth (m mod c) (cells (nx, ny, nz)) (0, 0, 0)%Z))) (moved None m)); [exact Vn|].
    unfold k, f. destruct (nth (m mod c) (cells (nx, ny, nz)) (0, 0, 0)%Z) as [[x y] z]. destruct (w (m / c)%nat) as [[i j] l]. unfold step, site, moved, move in *. unfold raw in Hr. cbv zeta in Hr.
    set (p := nth (m / c) basis v0) in *. set (q := nth (m / c) ps v0) in *. rewrite <- (shift_add bx). rewrite <- (SH x y z). unfold t.
    transitivity (vadd (vadd (vscale scale (cell_point b (vx p) (vy p) (vz p))) (vscale scale (BoxSpec.shift b x y z))) (vscale scale (displacement b (nx, ny, nz)))); [vec_ext; ring|]. rewrite Hr. vec_ext; ring.
  - intros m Hm D. destruct (DM m Hm) as (Hid & Hq & EM). destruct (Hw _ Hid) as [_ Hz]. specialize (Hz D). assert (IN : In (nth (m mod c) (cells (nx, ny, nz)) (0, 0, 0)%Z) (block (nx, ny, nz))) by (rewrite <- EC; apply nth_In; exact Hq).
    unfold k. destruct (nth (m mod c) (cells (nx, ny, nz)) (0, 0, 0)%Z) as [[x y] z]. destruct (w (m / c)%nat) as [[i j] l]. apply block_in in IN. simpl in Hz |- *. rewrite D2 in D. specialize (Qn D). cbn in Qn. lia.
  - rewrite Ln, LB, seq_mul. apply prod_blocks. intros id Hid.
    transitivity (map (fun q => (id, copy_of (nx, ny, nz) (step (nth q (cells (nx, ny, nz)) (0, 0, 0)%Z) (w id)))) (seq 0 c)).
    { apply Permutation_refl'. apply map_ext_in. intros q Hq. apply in_seq in Hq. unfold f, k. replace ((id * c + q) / c)%nat with id by (apply (Nat.div_unique _ _ _ q); lia). replace ((id * c + q) mod c)%nat with q by (apply (Nat.mod_unique _ _ id q); lia). reflexivity. }
    rewrite <- (map_map (fun q => nth q (cells (nx, ny, nz)) (0, 0, 0)%Z) (fun x => (id, copy_of (nx, ny, nz) (step x (w id))))). rewrite <- (map_map (fun x => copy_of (nx, ny, nz) (step x (w id))) (fun c => (id, c))). apply Permutation_map.
    replace (map (fun q => nth q (cells (nx, ny, nz)) (0, 0, 0)%Z) (seq 0 c)) with (block (nx, ny, nz)); [apply block_moved; auto|]. rewrite <- EC. unfold c. apply (nth_ext _ _ (0, 0, 0)%Z (0, 0, 0)%Z); [rewrite map_length, seq_length; reflexivity|]. intros q Hq. rewrite nth_map_seq by exact Hq. reflexivity.
Qed.
Print Assumptions C90_generate.
(** The neighbours and the RDF of a generated crystal do not depend on how many cells of it are generated. *)
Theorem C90_crystal be be' b basis r1 rn n scale bx ps bx' ps' p r : positive b -> basis <> [] ->
  requests b r1 (1, 1, 1)%Z -> requests b rn n -> uc_generate b basis r1 scale None = Some (bx, ps) -> uc_generate b basis rn scale None = Some (bx', ps') ->
  no_sentinel p -> well_formed p -> asks_ball p r -> 0 <= or_else (pa_rmin p) 0 -> or_else (pa_rmin p) 0 < r -> radius_ok bx r ->
  (Z.of_nat (length ps') <= 2 ^ 31)%Z -> usable be bx ps -> usable be' bx' ps' ->
  exists ls ls' f, (forall res, py_query be bx ps ps p res <-> res = Some ls) /\ (forall res, py_query be' bx' ps' ps' p res <-> res = Some ls') /\
    length ls = length ps /\ length ls' = length ps' /\
    (forall i, (i < length ps')%nat -> (f i < length ps)%nat /\ Permutation (map (home f f) (nth i ls' [])) (nth (f i) ls [])) /\
    forall bins r_max r_min r0 ev ev' read read', rdf_make bins r_max r_min = Some r0 -> (0 <= bins < 4294967295)%Z ->
      execution 0 (length ls) ev -> execution 0 (length ls') ev' -> execution 0 (Z.to_nat bins) read -> execution 0 (Z.to_nat bins) read' ->
      (Z.of_nat (copies_number n * dist_count r_min r_max [query_frame bx (length ps) ls ev]) < 2 ^ 32)%Z ->
      exists g g', rdf_run r0 [RCompute true (query_frame bx (length ps) ls ev); RRead read] = Some g /\
        rdf_run r0 [RCompute true (query_frame bx' (length ps') ls' ev'); RRead read'] = Some g' /\ rdf_pcf g' = rdf_pcf g /\ rdf_nr g' = rdf_nr g.
Proof.
  intros Hb Bne R1 Rn E1 En Se W A P0 P1 RO L U U'.
  destruct (C90_generate b basis r1 rn n scale bx ps bx' ps' Hb R1 Rn E1 En) as (PB & FP & PB' & SB & IC & IC' & t & f & k & RP).
  assert (HN : forall i, in_space b (moved None i)) by (intros i X; reflexivity).
  destruct (C64_count b basis r1 scale None Hb HN _ bx ps R1 E1) as [L1 _]. change (length (cells (1, 1, 1)%Z)) with 1%nat in L1.
  assert (CN := copies_count n bx bx' SB t f k ps ps' RP). assert (C0 : (0 < copies_number n)%nat) by (destruct n as [[nx ny] nz]; destruct SB as ((X & Y & Z) & _); unfold copies_number; nia).
  assert (Pne : ps <> []) by (intros ->; destruct basis; [auto|simpl in L1; lia]).
  assert (St : setting bx ps ps p r) by (constructor; auto; nia).
  destruct (C90_bonds be be' n bx bx' t f f k k p r ps ps ps' ps' St SB PB' RP RP ltac:(auto) L IC' IC' U U') as (ls & ls' & Q & Q' & Ls & Ls' & H).
  exists ls, ls', f. do 4 (split; [assumption|]). split; [exact H|]. intros bins r_max r_min r0 ev ev' read read' Mk Hbins He He' Hr Hr' Small.
  assert (MF := C90_frames n bx bx' t f f k (length ps) (length ps') ps ps' ls ls' ev ev' SB RP Ls Ls' CN H).
  destruct (C90_rdf (copies_number n) bins r_max r_min r0 [RCompute true (query_frame bx (length ps) ls ev)] [RCompute true (query_frame bx' (length ps') ls' ev')] read read' [] (query_frame bx (length ps) ls ev) C0 Mk Hbins) as (g & g' & G & G' & N & X & _); try assumption; try reflexivity.
  - repeat constructor; exact He. - repeat constructor; exact He'. - constructor; [constructor; exact MF|constructor].
  - assert (0 < length ps)%nat by (destruct ps; [congruence|simpl; lia]). unfold data_ok, query_frame. cbn. rewrite Ls. split; [apply QueryProps.volume_pos; exact PB|]. lia.
  - exists g, g'. repeat split; auto.
Qed.
Print Assumptions C90_crystal.

(** * The conditions can be met: two atoms two apart, and the crystal repeated twice along x. *)
Example C90_case : exists bx ps bx' ps', uc_generate ex_cube [V3 0 0 0; V3 (1/5) 0 0] (RepScalar 1) 1 None = Some (bx, ps) /\
  uc_generate ex_cube [V3 0 0 0; V3 (1/5) 0 0] (RepList [2; 1; 1]) 1 None = Some (bx', ps') /\
  positive ex_cube /\ requests ex_cube (RepScalar 1) (1, 1, 1)%Z /\ requests ex_cube (RepList [2; 1; 1]) (2, 1, 1)%Z /\
  length ps = 2%nat /\ length ps' = 4%nat /\ radius_ok bx 3 /\ no_sentinel ex_args /\ well_formed ex_args /\ asks_ball ex_args 3 /\ usable BAABB bx ps /\ usable BCell bx' ps'.
Proof.
  assert (HN : forall i, in_space ex_cube (moved None i)) by (intros i X; reflexivity). assert (Hb := ex_cube_positive).
  assert (R1 : requests ex_cube (RepScalar 1) (1, 1, 1)%Z) by (unfold requests; repeat split; auto; lia). assert (R2 : requests ex_cube (RepList [2; 1; 1]) (2, 1, 1)%Z) by (unfold requests; repeat split; auto; lia).
  destruct (generate_spec ex_cube [V3 0 0 0; V3 (1/5) 0 0] _ 1 None Hb HN _ R1 Rlt_0_1) as (ps & E1 & L1 & _). destruct (generate_spec ex_cube [V3 0 0 0; V3 (1/5) 0 0] _ 1 None Hb HN _ R2 Rlt_0_1) as (ps' & E2 & L2 & _).
  exists (mul_box ex_cube (1, 1, 1)%Z 1), ps, (mul_box ex_cube (2, 1, 1)%Z 1), ps'. destruct ex_args_ok as (S & W & A).
  assert (RO : radius_ok (mul_box ex_cube (1, 1, 1)%Z 1) 3) by (unfold radius_ok, plane_distance, mul_box, mk_box, ex_cube; simpl; replace (1 + 0 * 0 + (0 * 0 - 0) * (0 * 0 - 0)) with 1 by ring; replace (1 + 0 * 0) with 1 by ring; rewrite sqrt_1; repeat split; intros; lra).
  repeat split; auto; try apply RO; try apply R1; try apply R2; try apply Hb; try lia; try discriminate; try apply S; try apply W; try apply A.
Qed.
(** The same in the plane, for Hexatic. *)
Example C90_plane_case : exists bx ps bx' ps' t f k, b_2d bx = true /\ super_box (2, 3, 1)%Z bx bx' /\ positive bx' /\ setting bx ps ps ex_args 3 /\ replicated (2, 3, 1)%Z bx bx' t f k ps ps' /\
  (Z.of_nat (length ps') <= 2 ^ 31)%Z /\ (forall x, In x ps' -> in_cell bx' x) /\ length ps = 2%nat /\ length ps' = 12%nat.
Proof.
  assert (HN : forall i, in_space ex_plane (moved None i)) by (intros i X; reflexivity).
  assert (Hb : positive ex_plane) by (unfold positive, nonsingular, ex_plane; simpl; repeat split; intros; try discriminate; try lra; vec_ext; field).
  assert (R1 : requests ex_plane (RepScalar 1) (1, 1, 1)%Z) by (unfold requests; repeat split; auto; lia). assert (R2 : requests ex_plane (RepList [2; 3; 1]) (2, 3, 1)%Z) by (unfold requests; repeat split; auto; lia).
  destruct (generate_spec ex_plane [V3 0 0 0; V3 (1/5) 0 0] _ 1 None Hb HN _ R1 Rlt_0_1) as (ps & E1 & L1 & _). destruct (generate_spec ex_plane [V3 0 0 0; V3 (1/5) 0 0] _ 1 None Hb HN _ R2 Rlt_0_1) as (ps' & E2 & L2 & _).
  destruct (C90_generate _ _ _ _ _ _ _ _ _ _ Hb R1 R2 E1 E2) as (PB & FP & PB' & SB & IC & IC' & t & f & k & RP). change (length ps = 2%nat) in L1. change (length ps' = 12%nat) in L2.
  exists (mul_box ex_plane (1, 1, 1)%Z 1), ps, (mul_box ex_plane (2, 3, 1)%Z 1), ps', t, f, k. destruct ex_args_ok as (S & W & A).
  assert (RO : radius_ok (mul_box ex_plane (1, 1, 1)%Z 1) 3) by (unfold radius_ok, plane_distance, mul_box, mk_box, ex_plane; simpl; replace (1 + 0 * 0 + (0 * 0 - 0) * (0 * 0 - 0)) with 1 by ring; replace (1 + 0 * 0) with 1 by ring; rewrite sqrt_1; repeat split; intros; try discriminate; lra).
  split; [reflexivity|]. split; [exact SB|]. split; [exact PB'|]. split; [|split; [exact RP|]; split; [rewrite L2; simpl; lia|]; auto].
  assert (NE : ps <> []) by (intros ->; discriminate). constructor; auto; try (simpl; lra). rewrite L1. lia.
Qed.
