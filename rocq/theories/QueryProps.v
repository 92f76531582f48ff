(** C26 (query arguments), C32 (backends agree), C35 (periodicity check) and the query part of C22. *)
From Verif Require Import MArrayProofs NListProofs NListProofs2 AABBProofs2 FilterProps AABBProps LinkCellProps BoxProofs BoxProofs2 BoxProps CellQueryProps QueryModel QueryProofs QueryArgSpec.
Open Scope R_scope.

(** ** C26 *)
Lemma min_plane_spec b : smallest_plane b (min_plane b).
Proof.
  unfold smallest_plane, min_plane. cbv zeta. generalize (plane_distance b). intros [x y z]. simpl. destruct (b_2d b); unfold Rmin;
    repeat destruct (Rle_dec _ _); repeat split; intros; try discriminate; try lra; auto.
Qed.
Lemma smallest_pos b m : positive b -> smallest_plane b m -> 0 < m.
Proof. intros Hb (_ & _ & _ & H). destruct (plane_pos b Hb) as (X & Y & Z). destruct H as [-> | [-> | [E ->]]]; auto. Qed.
Lemma min_plane_pos b : positive b -> 0 < min_plane b.
Proof. intros Hb. exact (smallest_pos b _ Hb (min_plane_spec b)). Qed.
Lemma cbrt_nonneg x : 0 <= x -> 0 <= cbrt x /\ cbrt x ^ 3 = x.
Proof.
  intros H. unfold cbrt. destruct (Rltb 0 x) eqn:E.
  - apply Rltb_true in E. split; [left; apply exp_pos|]. rewrite <- Rpower_pow by apply exp_pos. rewrite Rpower_mult. replace (1 / 3 * INR 3) with 1 by (simpl; field).
    apply Rpower_1; auto.
  - apply Rltb_false in E. rewrite (proj2 (Rltb_false x 0)) by lra. split; [lra|]. simpl. lra.
Qed.
Lemma volume_pos b : positive b -> 0 < volume b.
Proof.
  intros (_ & X & Y & Z). unfold volume. destruct (b_2d b) eqn:E; [apply Rmult_lt_0_compat; auto|]. specialize (Z eq_refl).
  repeat apply Rmult_lt_0_compat; auto.
Qed.
Lemma density_cbrt b k n : positive b -> (0 < n)%nat -> (0 <= k)%Z -> density_radius k n (volume b) (cbrt (3 * IZR k * volume b / (4 * PI * INR n))).
Proof.
  intros Hb Hn Hk. pose proof (volume_pos b Hb) as V. pose proof PI_RGT_0 as P. assert (N : 0 < INR n) by (apply lt_0_INR; auto).
  assert (K : 0 <= IZR k) by (apply (IZR_le 0); auto).
  destruct (cbrt_nonneg (3 * IZR k * volume b / (4 * PI * INR n))) as [A B].
  { apply Rmult_le_pos; [repeat apply Rmult_le_pos; lra|]. left. apply Rinv_0_lt_compat. apply Rmult_lt_0_compat; [|auto]. lra. }
  split; auto. rewrite B. field. split; lra.
Qed.

(** Which arguments AABBQuery accepts. *)
Theorem C26_accepted_aabb (b : box) (n : nat) (p : pyargs) : no_sentinel p ->
  (accept (validate_aabb b n) p <> None <->
   well_formed p /\ ((exists r, asks_ball p r) \/ exists k, asks_nearest p k /\ forall s, pa_scale p = Some s -> 1 < s)).
Proof.
  intros S. split.
  - intros H. assert (HB : accept validate_base p <> None).
    { intros E. apply H. unfold accept in *. destruct (encode p) as [a|]; auto. unfold validate_aabb. rewrite E. auto. }
    destruct (base_accepts p S HB) as [W [[r A] | [k A]]]; split; auto; [left; exists r; auto|]. right. exists k. split; auto.
    intros s Es. revert H. unfold accept. pose proof (base_nearest p k S W A) as B. unfold accept in B. destruct (encode p) as [a|]; [|congruence].
    unfold validate_aabb. rewrite B. unfold fill. cbn [qa_mode]. unfold validate_near. cbn [qa_scale]. rewrite Es. cbn [or_else].
    destruct (Reqb_spec s (-1)) as [-> |N]; [destruct S as (_ & _ & S & _); congruence|]. destruct (Rleb s 1) eqn:L; [congruence|]. apply Rleb_false in L. auto.
  - intros [W [[r A] | (k & A & Hs)]] H; revert H; unfold accept.
    + pose proof (base_ball p r S W A) as B. unfold accept in B. destruct (encode p); [|discriminate]. unfold validate_aabb. rewrite B. discriminate.
    + pose proof (base_nearest p k S W A) as B. unfold accept in B. destruct (encode p); [|discriminate]. unfold validate_aabb. rewrite B. unfold fill, validate_near. cbn [qa_mode qa_scale].
      destruct (Reqb (or_else (pa_scale p) (-1)) (-1)) eqn:E; [discriminate|]. destruct (pa_scale p) as [s|]; cbn [or_else] in *.
      * rewrite (proj2 (Rleb_false s 1)) by (apply Hs; auto). discriminate.
      * destruct (Reqb_spec (-1) (-1)); congruence.
Qed.
Print Assumptions C26_accepted_aabb.
(** LinkCell does not look at scale and r_guess; CellQuery takes ball queries only and checks the radii at once, for every
    direction of the box whatever its periodic flags are. *)
Theorem C26_accepted_linkcell (p : pyargs) : no_sentinel p ->
  (accept validate_base p <> None <-> well_formed p /\ ((exists r, asks_ball p r) \/ exists k, asks_nearest p k)).
Proof.
  intros S. split; [apply base_accepts; auto|]. intros [W [[r A] | [k A]]]; [rewrite (base_ball p r)|rewrite (base_nearest p k)]; auto; discriminate.
Qed.
Print Assumptions C26_accepted_linkcell.
Theorem C26_accepted_cellquery (b : box) (p : pyargs) : no_sentinel p ->
  (accept (validate_cell b) p <> None <->
   well_formed p /\ exists r, asks_ball p r /\ 0 < r /\ or_else (pa_rmin p) 0 < r /\
     forall m, smallest_plane b m -> 2 * r < m).
Proof.
  intros S. assert (Q : forall r rm, cq_args_ok b r rm = true <-> 0 < r /\ rm < r /\ forall m, smallest_plane b m -> 2 * r < m).
  { intros r rm. unfold cq_args_ok. cbv zeta. rewrite andb_true_iff, negb_true_iff, !orb_false_iff. unfold ball_args_ok. rewrite andb_true_iff, !Rltb_true, !Rleb_false.
    unfold smallest_plane. generalize (plane_distance b). intros [x y z]. simpl. destruct (b_2d b) eqn:E2; simpl.
    - split.
      + intros [[[A B] _] [C D]]. repeat split; auto. intros m (M1 & M2 & M3 & [-> | [-> | [M4 _]]]); [lra|lra|discriminate].
      + intros (C & D & H). assert (M : 2 * r < Rmin x y) by (apply H; unfold Rmin; destruct (Rle_dec x y); repeat split; auto; try lra; intros; discriminate).
        unfold Rmin in M. destruct (Rle_dec x y); repeat split; auto; lra.
    - rewrite Rleb_false. split.
      + intros [[[A B] Cz] [C D]]. repeat split; auto. intros m (M1 & M2 & M3 & [-> | [-> | [M4 ->]]]); lra.
      + intros (C & D & H). assert (M : 2 * r < Rmin (Rmin x y) z).
        { apply H. unfold Rmin. repeat destruct (Rle_dec _ _); repeat split; intros; auto; try lra. }
        unfold Rmin in M. repeat destruct (Rle_dec _ _); repeat split; auto; lra. }
  split.
  - intros H. assert (HB : accept validate_base p <> None).
    { intros E. apply H. unfold accept in *. destruct (encode p) as [a|]; auto. unfold validate_cell. rewrite E. auto. }
    destruct (base_accepts p S HB) as [W [[r A] | [k A]]]; split; auto; revert H; unfold accept.
    + intros H. exists r. split; auto. apply Q. pose proof (base_ball p r S W A) as B. unfold accept in B. destruct (encode p); [|discriminate]. revert H. unfold validate_cell. rewrite B.
      unfold fill. cbn [qa_mode qa_rmax qa_rmin]. destruct (cq_args_ok b r (or_else (pa_rmin p) 0)); congruence.
    + pose proof (base_nearest p k S W A) as B. unfold accept in B. destruct (encode p); [|discriminate]. unfold validate_cell. rewrite B. unfold fill. cbn [qa_mode]. congruence.
  - intros [W (r & A & H)] E. revert E. unfold accept. pose proof (base_ball p r S W A) as B. unfold accept in B. destruct (encode p); [|discriminate]. unfold validate_cell. rewrite B.
    unfold fill. cbn [qa_mode qa_rmax qa_rmin]. rewrite (proj2 (Q r (or_else (pa_rmin p) 0)) H). discriminate.
Qed.
Print Assumptions C26_accepted_cellquery.
(** The values used: given ones unchanged, documented defaults otherwise. *)
Theorem C26_ball_values (b : box) (n : nat) (be : backend) (p : pyargs) (a : qargs) (r : R) : no_sentinel p -> asks_ball p r ->
  accept (validate_query be b n) p = Some a ->
  qa_mode a = MBall /\ qa_rmax a = Fin r /\ qa_rmin a = or_else (pa_rmin p) 0 /\ qa_excl a = or_else (pa_excl p) false.
Proof.
  intros S A H. assert (HB : accept validate_base p <> None).
  { intros E. unfold accept in *. destruct (encode p) as [a'|]; [|discriminate]. destruct be; unfold validate_query, validate_aabb, validate_cell in H; rewrite E in H; discriminate. }
  destruct (base_accepts p S HB) as [W _]. pose proof (base_ball p r S W A) as B. unfold accept in B, H. destruct (encode p); [|discriminate].
  assert (E : a = fill p MBall default_k (Fin r)).
  { destruct be; unfold validate_query, validate_aabb, validate_cell in H; rewrite B in H; unfold fill in H; cbn [qa_mode qa_rmax qa_rmin] in H; try (injection H as <-; reflexivity).
    destruct (cq_args_ok b r (or_else (pa_rmin p) 0)); [injection H as <-; reflexivity|discriminate]. }
  subst a. unfold fill. auto.
Qed.
Print Assumptions C26_ball_values.
Theorem C26_nearest_values (b : box) (n : nat) (p : pyargs) (a : qargs) (k : Z) : positive b -> (0 < n)%nat -> no_sentinel p -> asks_nearest p k ->
  accept (validate_aabb b n) p = Some a ->
  qa_mode a = MNearest /\ qa_k a = k /\ qa_rmax a = match pa_rmax p with Some r => Fin r | None => Inf end /\
  qa_rmin a = or_else (pa_rmin p) 0 /\ qa_excl a = or_else (pa_excl p) false /\ qa_scale a = or_else (pa_scale p) (11 / 10) /\ 1 < qa_scale a /\
  exists g, qa_rguess a = xmin g (qa_rmax a) /\
    match pa_rguess p with
    | Some r => g = r
    | None => exists d m, density_radius k n (volume b) d /\ smallest_plane b m /\ g = Rmin d (m / 2)
    end.
Proof.
  intros Hb Hn S A H. assert (HB : accept validate_base p <> None).
  { intros E. unfold accept in *. destruct (encode p) as [a'|]; [|discriminate]. unfold validate_aabb in H. rewrite E in H. discriminate. }
  destruct (base_accepts p S HB) as [W _]. pose proof (base_nearest p k S W A) as B. unfold accept in B, H. destruct (encode p); [|discriminate].
  unfold validate_aabb in H. rewrite B in H. unfold fill, validate_near in H. cbn [qa_mode qa_scale qa_rguess qa_k qa_rmax qa_rmin qa_excl] in H.
  assert (K : (0 <= k)%Z) by (destruct W as (_ & _ & W); destruct A as [A _]; specialize (W k A); lia).
  destruct S as (S1 & S2 & S3 & S4).
  destruct (if Reqb _ _ then _ else _) as [sc|] eqn:E in H; [|discriminate]. apply some_inj in H. subst a. cbn [qa_mode qa_scale qa_rguess qa_k qa_rmax qa_rmin qa_excl].
  repeat (split; [reflexivity|]). split; [|split].
  - destruct (pa_scale p) as [s|]; cbn [or_else] in *.
    + destruct (Reqb_spec s (-1)) as [-> |N]; [congruence|]. destruct (Rleb s 1); [discriminate|]. congruence.
    + destruct (Reqb_spec (-1) (-1)) as [_|N]; [congruence|lra].
  - destruct (Reqb (or_else (pa_scale p) (-1)) (-1)); [injection E as <-; lra|]. destruct (Rleb (or_else (pa_scale p) (-1)) 1) eqn:L; [discriminate|]. injection E as <-. apply Rleb_false in L. auto.
  - eexists. split; [reflexivity|]. destruct (pa_rguess p) as [g|]; cbn [or_else].
    + destruct (Reqb_spec g (-1)) as [-> |N]; [congruence|reflexivity].
    + destruct (Reqb_spec (-1) (-1)) as [_|N]; [|lra]. eexists _, _. split; [apply density_cbrt; auto|]. split; [apply min_plane_spec|reflexivity].
Qed.
Print Assumptions C26_nearest_values.
(** Validation happens in query() and again in every querySingle(); the second time changes nothing. *)
Theorem C26_idempotent (b : box) (n : nat) (a a' : qargs) : positive b -> (0 < n)%nat -> (0 <= qa_k a)%Z ->
  (validate_base a = Some a' -> validate_base a' = Some a') /\
  (validate_aabb b n a = Some a' -> validate_aabb b n a' = Some a') /\
  (validate_cell b a = Some a' -> validate_cell b a' = Some a').
Proof.
  intros Hb Hn Hk. split; [apply base_again|]. unfold validate_aabb, validate_cell. split.
  - destruct (validate_base a) as [c|] eqn:B; [|discriminate]. destruct (qa_mode c) eqn:M.
    + intros E. injection E as <-. rewrite (base_again a c B), M. reflexivity.
    + intros E. injection E as <-. rewrite (base_again a c B), M. reflexivity.
    + intros V. pose proof (base_again a c B) as BB. unfold validate_near in V.
      destruct (if Reqb (qa_scale c) (-1) then _ else _) as [sc|] eqn:Es in V; [|discriminate]. apply some_inj in V.
      assert (SC : 1 < sc).
      { destruct (Reqb (qa_scale c) (-1)); [injection Es as <-; lra|]. destruct (Rleb (qa_scale c) 1) eqn:L; [discriminate|]. injection Es as <-. apply Rleb_false in L. auto. }
      assert (KC : (qa_k c =? default_k)%Z = false /\ is_default (qa_rmax c) = false /\ (0 <= qa_k c)%Z).
      { assert (Kc : qa_k c = qa_k a).
        { revert B. unfold validate_base, infer_mode. destruct (qa_mode a) eqn:Ma; cbn zeta.
          - destruct (qa_k a =? default_k)%Z; cbn [negb]; [destruct (is_default (qa_rmax a)); cbn [negb]|];
              rewrite ?Ma; cbn [qa_mode qa_k qa_rmax]; try discriminate;
              repeat match goal with |- context [if ?x then _ else _] => destruct x end; intros E; try discriminate; injection E as <-; reflexivity.
          - rewrite Ma. repeat match goal with |- context [if ?x then _ else _] => destruct x end; intros E; try discriminate; injection E as <-; reflexivity.
          - rewrite Ma. repeat match goal with |- context [if ?x then _ else _] => destruct x end; intros E; try discriminate; injection E as <-; reflexivity. }
        unfold validate_base, infer_mode in BB. rewrite M in BB. cbn zeta in BB. rewrite M in BB.
        destruct (qa_k c =? default_k)%Z; [discriminate|]. destruct (is_default (qa_rmax c)) eqn:D; [|repeat split; auto; lia].
        injection BB as BB. rewrite <- BB in D. simpl in D. discriminate. }
      destruct KC as (K1 & K2 & K3).
      assert (BA : validate_base a' = Some a').
      { rewrite <- V. unfold validate_base, infer_mode. cbn [qa_mode]. rewrite M. cbn zeta. cbn [qa_mode qa_k qa_rmax]. rewrite K1, K2. reflexivity. }
      rewrite BA. replace (qa_mode a') with MNearest by (rewrite <- V; cbn [qa_mode]; auto). unfold validate_near.
      replace (qa_scale a') with sc by (rewrite <- V; reflexivity). destruct (Reqb_spec sc (-1)) as [Z|_]; [lra|]. rewrite (proj2 (Rleb_false sc 1)) by auto.
      assert (G : qa_rguess a' <> -1).
      { rewrite <- V. cbn [qa_rguess].
        assert (G0 : (if Reqb (qa_rguess c) (-1) then Rmin (cbrt (3 * IZR (qa_k c) * volume b / (4 * PI * INR n))) (min_plane b / 2) else qa_rguess c) <> -1).
        { destruct (Reqb_spec (qa_rguess c) (-1)) as [_|N]; auto. pose proof (min_plane_pos b Hb). destruct (density_cbrt b (qa_k c) n Hb Hn K3) as [A0 _].
          unfold Rmin. destruct (Rle_dec _ _); lra. }
        revert G0. generalize (if Reqb (qa_rguess c) (-1) then Rmin (cbrt (3 * IZR (qa_k c) * volume b / (4 * PI * INR n))) (min_plane b / 2) else qa_rguess c). intros g Hg.
        destruct (qa_rmax c) as [r|]; simpl; auto. unfold Rmin. destruct (Rle_dec g r); auto. intros E. apply is_default_fin in E. congruence. }
      destruct (Reqb_spec (qa_rguess a') (-1)) as [Z|_]; [contradiction|]. rewrite <- V. cbn [qa_mode qa_scale qa_rguess qa_k qa_rmax qa_rmin qa_excl]. do 2 f_equal.
      generalize (if Reqb (qa_rguess c) (-1) then Rmin (cbrt (3 * IZR (qa_k c) * volume b / (4 * PI * INR n))) (min_plane b / 2) else qa_rguess c). intros g.
      destruct (qa_rmax c) as [r|]; simpl; auto. unfold Rmin. repeat destruct (Rle_dec _ _); lra.
  - destruct (validate_base a) as [c|] eqn:B; [|discriminate]. intros H. assert (E : a' = c).
    { destruct (qa_mode c); try discriminate; destruct (qa_rmax c); try discriminate; destruct (cq_args_ok _ _ _); try discriminate; injection H as <-; auto. }
    subst a'. rewrite (base_again a c B). auto.
Qed.
Print Assumptions C26_idempotent.
(** Values used internally for "not given" are indistinguishable from omitted arguments: r_max = -1 is accepted as "no limit"
    although every other negative r_max is refused, scale = -1 is accepted although scale must exceed 1, and
    num_neighbors = 2^32-1 with r_max turns a nearest query into a ball query. *)
Theorem C26_sentinel_refuted :
  (exists p a, well_formed p /\ asks_nearest p 5 /\ pa_rmax p = Some (-1) /\ accept validate_base p = Some a /\ qa_rmax a = Inf) /\
  (exists p, well_formed p /\ asks_nearest p 5 /\ pa_scale p = Some (-1) /\ forall b n, accept (validate_aabb b n) p <> None) /\
  (exists p a, well_formed p /\ asks_nearest p 4294967295 /\ accept validate_base p = Some a /\ qa_mode a = MBall).
Proof.
  assert (D : Reqb (-1) (-1) = true) by (destruct (Reqb_spec (-1) (-1)); congruence).
  assert (E : Reqb 2 (-1) = false) by (destruct (Reqb_spec 2 (-1)); [lra|auto]).
  split; [|split].
  - exists (PA PyNone (Some (-1)) None None (Some 5%Z) None None false). eexists. unfold well_formed, asks_nearest, mode_unset. simpl.
    split; [split; [auto|split; [discriminate|]]; intros k Ek; injection Ek as <-; lia|]. split; [auto|]. split; [auto|]. unfold accept, encode. cbn.
    rewrite D. split; reflexivity.
  - exists (PA PyNone None None None (Some 5%Z) None (Some (-1)) false). unfold well_formed, asks_nearest, mode_unset. simpl.
    split; [split; [auto|split; [discriminate|]]; intros k Ek; injection Ek as <-; lia|]. split; [auto|]. split; [auto|]. intros b n. unfold accept, encode, validate_aabb, validate_base, validate_near.
    cbn [pa_mode pa_k pa_unknown pa_rmax pa_rmin pa_rguess pa_scale pa_excl]. cbn [andb Z.leb Z.ltb Z.compare]. cbn -[Reqb Rmin cbrt min_plane PI xmin]. rewrite D. cbn -[Reqb Rmin cbrt min_plane PI xmin]. rewrite D. discriminate.
  - exists (PA PyNone (Some 2) None None (Some 4294967295%Z) None None false). eexists. unfold well_formed, asks_nearest, mode_unset. simpl.
    split; [split; [auto|split; [discriminate|]]; intros k Ek; injection Ek as <-; lia|]. split; [auto|]. unfold accept, encode.
    cbn. unfold validate_base, infer_mode. cbn. rewrite E. cbn. rewrite E. split; reflexivity.
Qed.
Print Assumptions C26_sentinel_refuted.
Example C26_ex : let p := PA PyNone (Some 3) None None (Some 6%Z) (Some true) None false in
  no_sentinel p /\ well_formed p /\ asks_nearest p 6 /\ accept (validate_aabb ex_cube 10) p <> None.
Proof.
  cbv zeta. set (p := PA _ _ _ _ _ _ _ _). assert (S : no_sentinel p) by (unfold no_sentinel, p; simpl; repeat split; try discriminate; intros E; injection E as E; lra).
  assert (W : well_formed p) by (unfold well_formed, p; simpl; split; [reflexivity|split; [discriminate|]]; intros k Ek; injection Ek as <-; lia).
  assert (A : asks_nearest p 6) by (unfold asks_nearest, mode_unset; simpl; auto). split; [exact S|split; [exact W|split; [exact A|]]].
  apply C26_accepted_aabb; auto. split; auto. right. exists 6%Z. split; auto. intros s Es. discriminate.
Qed.

(** ** C32 *)
Lemma single_ball be b points p r q qi res : r <> -1 ->
  (single be b points (fill p MBall default_k (Fin r)) q qi res <->
   match be with
   | BAABB | BRaw => aabb_ball b points q qi r (or_else (pa_rmin p) 0) (or_else (pa_excl p) false) true res
   | BLink cw => match lc_make b points cw with Some lc => lc_ball lc q qi r (or_else (pa_rmin p) 0) (or_else (pa_excl p) false) res | None => False end
   | BCell => cq_ball b points q qi r (or_else (pa_rmin p) 0) (or_else (pa_excl p) false) res
   end).
Proof.
  intros N. assert (D : is_default (Fin r) = false) by (destruct (is_default (Fin r)) eqn:D; auto; apply is_default_fin in D; congruence).
  assert (V : validate_base (fill p MBall default_k (Fin r)) = Some (fill p MBall default_k (Fin r))).
  { unfold validate_base, infer_mode, fill. cbn zeta. cbn [qa_mode qa_rmax qa_k]. rewrite D, Z.eqb_refl. reflexivity. }
  unfold single. destruct be; unfold validate_single, validate_aabb, validate_cell; rewrite V; try reflexivity.
  unfold fill. cbn [qa_mode qa_rmax qa_rmin]. unfold cq_ball. destruct (cq_args_ok b r (or_else (pa_rmin p) 0)) eqn:C; cbn [qa_mode qa_rmax qa_rmin qa_excl]; rewrite ?C; [reflexivity|].
  rewrite andb_false_r. reflexivity.
Qed.
Lemma query_ball be b points qs p r res : no_sentinel p -> well_formed p -> asks_ball p r ->
  (py_query be b points qs p res <-> constructed be b points /\ qs <> [] /\
    if checks_periodic be && negb (b_px b && b_py b && b_pz b) then res = None
    else match be with
         | BCell => if cq_args_ok b r (or_else (pa_rmin p) 0) then drain_all (single be b points (fill p MBall default_k (Fin r))) 0 qs res else res = None
         | _ => drain_all (single be b points (fill p MBall default_k (Fin r))) 0 qs res
         end).
Proof.
  intros S W A. pose proof (base_ball p r S W A) as B. unfold accept in B. unfold py_query. destruct (encode p) as [a|]; [|discriminate].
  unfold nq_query. destruct be; unfold validate_query, validate_aabb, validate_cell; rewrite B; unfold fill; cbn [qa_mode qa_rmax qa_rmin]; try tauto.
  destruct (cq_args_ok b r (or_else (pa_rmin p) 0)); tauto.
Qed.

(** A backend whose constructor succeeds on the given system (LinkCell with a positive cell width). *)
Definition usable (be : backend) (b : box) (points : list vec3) : Prop :=
  match be with BLink cw => exists lc, lc_make b points cw = Some lc /\ 0 < lc_width lc | _ => True end.
(** The situation of the claims: a fully periodic box, all points and query points in the cell, and a ball query with admissible radii. *)
Record setting (b : box) (points qs : list vec3) (p : pyargs) (r : R) : Prop := {
  st_pos : positive b; st_per : fully_periodic b; st_ne : points <> []; st_n : (Z.of_nat (length points) <= 2 ^ 31)%Z;
  st_pts : forall x, In x points -> in_cell b x; st_qne : qs <> []; st_qs : forall x, In x qs -> in_cell b x;
  st_sent : no_sentinel p; st_wf : well_formed p; st_ball : asks_ball p r;
  st_rmin : 0 <= or_else (pa_rmin p) 0; st_rmax : or_else (pa_rmin p) 0 < r; st_r : radius_ok b r }.

Lemma in_cell_space b x : positive b -> in_cell b x -> in_space b x.
Proof. intros Hb (s & t & u & -> & _). apply cell_point_in_space, Hb. Qed.
Lemma flat_id b x : in_space b x -> flat b x = x.
Proof. intros H. unfold flat. destruct (b_2d b) eqn:E; auto. destruct x as [x y z]. specialize (H E). simpl in *. subst. reflexivity. Qed.

(** Every backend returns exactly the brute-force bonds of every query point. *)
Theorem C32_ball (be : backend) (b : box) (points qs : list vec3) (p : pyargs) (r : R) : setting b points qs p r -> usable be b points ->
  exists ls, (forall res, py_query be b points qs p res <-> res = Some ls) /\ length ls = length qs /\
    forall i, (i < length qs)%nat -> NoDup (nth i ls []) /\
      forall x, In x (nth i ls []) <-> in_range b points (nth i qs v0) i r (or_else (pa_rmin p) 0) (or_else (pa_excl p) false) all_images x.
Proof.
  intros [Hb FP Hne Hn HP Hqne HQ S W A R0 R1 RO] U. set (rm := or_else (pa_rmin p) 0) in *. set (ex := or_else (pa_excl p) false).
  assert (N : r <> -1) by (destruct A as [A _]; destruct S as [S _]; congruence).
  assert (NQ : nq_ok b points = true) by (apply nq_ok_cell; auto).
  assert (CQ : cq_args_ok b r rm = true).
  { unfold cq_args_ok, ball_args_ok. cbv zeta. destruct RO as (X & Y & Z). destruct FP as (Fx & Fy & Fz). specialize (X Fx). specialize (Y Fy).
    rewrite (proj2 (Rleb_false (vx (plane_distance b)) (r * 2))) by lra. rewrite (proj2 (Rleb_false (vy (plane_distance b)) (r * 2))) by lra.
    rewrite (proj2 (Rltb_true 0 r)) by lra. rewrite (proj2 (Rltb_true rm r)) by lra.
    destruct (b_2d b) eqn:E2; cbn [negb andb orb]; auto. specialize (Z eq_refl Fz). rewrite (proj2 (Rleb_false (vz (plane_distance b)) (r * 2))) by lra. reflexivity. }
  destruct (drain_all_some (single be b points (fill p MBall default_k (Fin r)))
     (fun i q l => NoDup l /\ forall x, In x l <-> in_range b points q i r rm ex all_images x) qs 0) as (ls & HR & HL & HI).
  { intros j Hj. rewrite Nat.add_0_l. assert (Hq : in_cell b (nth j qs v0)) by (apply HQ, nth_In; auto). generalize dependent (nth j qs v0). intros q Hq.
    assert (AB : exists l, (forall res, aabb_ball b points q j r rm ex true res <-> res = Some l) /\ NoDup l /\ forall x, In x l <-> in_range b points q j r rm ex all_images x).
    { destruct (C29_ball_defined b points q j r rm ex Hne) as (res & H1 & H2 & H3). destruct res as [l|].
      - exists l. split; [intros res; split; [intros H; symmetry; symmetry; apply H2; auto|intros ->; auto]|].
        apply (C29_ball_brute_force b points q j r rm ex l); auto.
        + intros x Hx. rewrite flat_id by (apply in_cell_space; auto). auto.
        + rewrite flat_id by (apply in_cell_space; auto). auto.
      - exfalso. apply (proj1 H3 eq_refl). repeat split; try lra; apply RO. }
    destruct be.
    - destruct AB as (l & E & H). exists l. split; auto. intros res. rewrite single_ball; auto.
    - destruct U as (lc & EL & Hw). destruct (C30_ball_brute_force b points cell_width lc q j r rm ex) as (l & E & H); auto.
      { intros x Hx. apply in_cell_space; auto. }
      exists l. split; auto. intros res. rewrite single_ball by auto. rewrite EL. auto.
    - destruct (C31_ball b points q j r rm ex) as [H _]; auto. destruct H as (l & E & H). { repeat split; try lra; apply RO. }
      exists l. split; auto. intros res. rewrite single_ball; auto.
    - destruct AB as (l & E & H). exists l. split; auto. intros res. rewrite single_ball; auto. }
  exists ls. split; [|split; auto]. intros res. rewrite (query_ball be b points qs p r res S W A). fold rm. rewrite CQ.
  destruct FP as (-> & -> & ->). simpl andb. rewrite andb_false_r. rewrite <- HR. destruct be; split; try tauto; intros D; (split; [|split; auto]); split; auto.
  destruct U as (lc & EL & _). rewrite EL. discriminate.
Qed.
Print Assumptions C32_ball.
(** Hence any two backends agree, query point by query point. *)
Theorem C32_agree (be be' : backend) (b : box) (points qs : list vec3) (p : pyargs) (r : R) (ls ls' : list (list bond)) :
  setting b points qs p r -> usable be b points -> usable be' b points ->
  py_query be b points qs p (Some ls) -> py_query be' b points qs p (Some ls') -> Forall2 (@Permutation bond) ls ls'.
Proof.
  intros St U U' Q Q'. destruct (C32_ball be b points qs p r St U) as (l1 & E & L & H). destruct (C32_ball be' b points qs p r St U') as (l2 & E' & L' & H').
  apply E in Q. apply E' in Q'. injection Q as ->. injection Q' as ->.
  clear E E'. assert (G : forall i, (i < length l1)%nat -> Permutation (nth i l1 []) (nth i l2 [])).
  { intros i Hi. rewrite L in Hi. destruct (H i Hi) as [N1 I1]. destruct (H' i Hi) as [N2 I2]. apply NoDup_Permutation; auto. intros x. rewrite I1, I2. reflexivity. }
  assert (LL : length l1 = length l2) by lia. clear - G LL. revert l2 G LL. induction l1 as [|x l1 IH]; intros [|y l2] G LL; try discriminate; constructor.
  - apply (G 0%nat). simpl. lia.
  - apply IH; [|simpl in LL; lia]. intros i Hi. apply (G (S i)). simpl. lia.
Qed.
Print Assumptions C32_agree.

(** In that setting a query point has at most one bond to each point. *)
Lemma one_bond b points q qi r rm ex x y : positive b -> (forall x, In x points -> in_cell b x) -> in_cell b q -> radius_ok b r ->
  in_range b points q qi r rm ex all_images x -> in_range b points q qi r rm ex all_images y -> bp x = bp y -> x = y.
Proof.
  intros Hb HP HQ RO Hx Hy E. apply wrapped_brute in Hx; auto; try (intros; apply in_cell_space; auto). apply wrapped_brute in Hy; auto; try (intros; apply in_cell_space; auto).
  destruct Hx as (j & _ & _ & Hx). destruct Hy as (j' & _ & _ & Hy). cbv zeta in Hx, Hy. destruct Hx as [_ ->]. destruct Hy as [_ ->]. simpl in E. subst j'. reflexivity.
Qed.
(** The neighbour lists built from the results are equal bond by bond, whatever the schedules of the parallel loops and the sort. *)
Theorem C32_neighbor_lists (be be' : backend) (b : box) (points qs : list vec3) (p : pyargs) (r : R) (ls ls' : list (list bond))
    (by_d : bool) (ev ev2 ev' ev2' : list (nat * nat)) (nl nl' : nlist) :
  setting b points qs p r -> usable be b points -> usable be' b points ->
  py_query be b points qs p (Some ls) -> py_query be' b points qs p (Some ls') ->
  execution 0 (length qs) ev -> execution 0 (length (nl_bonds nl)) ev2 -> execution 0 (length qs) ev' -> execution 0 (length (nl_bonds nl')) ev2' ->
  to_neighbor_list by_d (length qs) (length points) (fun i => nth i ls []) ev ev2 nl ->
  to_neighbor_list by_d (length qs) (length points) (fun i => nth i ls' []) ev' ev2' nl' ->
  nl_bonds nl = nl_bonds nl'.
Proof.
  intros St U U' Q Q' X1 X2 X3 X4 T T'. pose proof (C32_agree be be' b points qs p r ls ls' St U U' Q Q') as AG.
  destruct (C32_ball be b points qs p r St U) as (l1 & E & L & H). apply E in Q. injection Q as <-. clear E.
  destruct (to_neighbor_list_spec _ _ _ _ _ _ _ X1 X2 T) as (_ & _ & _ & HP & HO). destruct (to_neighbor_list_spec _ _ _ _ _ _ _ X3 X4 T') as (_ & _ & _ & HP' & HO').
  destruct St as [Hb FP Hne Hn HPt Hqne HQ S W A R0 R1 RO].
  assert (MEM : forall x, In x (nl_bonds nl) -> (bq x < length qs)%nat /\ in_range b points (nth (bq x) qs v0) (bq x) r (or_else (pa_rmin p) 0) (or_else (pa_excl p) false) all_images x).
  { intros x Hx. apply (Permutation_in _ (Permutation_sym HP)) in Hx. apply in_map_iff in Hx as (y & <- & Hy). apply in_flat_map in Hy as (i & Hi & Hy).
    unfold range in Hi. apply in_seq in Hi. assert (Hi' : (i < length qs)%nat) by lia. destruct (H i Hi') as [_ I]. apply I in Hy. clear I.
    assert (EQ : rebuild y = y /\ bq y = i). { destruct Hy as (j & i1 & i2 & i3 & _ & _ & _ & _ & _ & ->). split; reflexivity. }
    destruct EQ as [-> EQ]. rewrite EQ. auto. }
  apply (sort_unique (if by_d then less_as_distance else less_as_tuple)); auto.
  - rewrite <- HP, <- HP'. apply Permutation_map. rewrite <- L in *.
    assert (G : forall l l' : list (list bond), Forall2 (@Permutation bond) l l' -> Permutation (flat_map (fun i => nth i l []) (range 0 (length l))) (flat_map (fun i => nth i l' []) (range 0 (length l)))).
    { clear. intros l l' F. unfold range. rewrite Nat.sub_0_r.
      assert (K : forall i, Permutation (nth i l []) (nth i l' [])) by (induction F; intros [|i]; simpl; auto).
      generalize (seq 0 (length l)). intros R. induction R as [|i R IH]; simpl; auto. apply Permutation_app; auto. }
    apply G, AG.
  - intros x y Hx Hy Lxy Lyx. destruct (MEM x Hx) as [Bx Ix]. destruct (MEM y Hy) as [By Iy].
    assert (E : bq x = bq y /\ bp x = bp y).
    { clear - Lxy Lyx. destruct by_d; [unfold less_as_distance in *|unfold less_as_tuple in *];
        destruct (Nat.eqb_spec (bq x) (bq y)) as [E1|E1], (Nat.eqb_spec (bq y) (bq x)) as [E2|E2]; cbn [negb] in *; try lia;
        try (apply Nat.ltb_ge in Lxy, Lyx; lia); split; auto.
      - destruct (Reqb_spec (bd x) (bd y)) as [E3|E3], (Reqb_spec (bd y) (bd x)) as [E4|E4]; cbn [negb] in *; try congruence.
        + destruct (Nat.eqb_spec (bp x) (bp y)) as [E5|E5], (Nat.eqb_spec (bp y) (bp x)) as [E6|E6]; cbn [negb] in *; try lia. apply Nat.ltb_ge in Lxy, Lyx. lia.
        + apply Rltb_false in Lxy, Lyx. lra.
      - destruct (Nat.eqb_spec (bp x) (bp y)) as [E5|E5], (Nat.eqb_spec (bp y) (bp x)) as [E6|E6]; cbn [negb] in *; try lia. apply Nat.ltb_ge in Lxy, Lyx. lia. }
    destruct E as [Eq Ep]. rewrite <- Eq in Iy. eapply one_bond; [exact Hb|exact HPt| |exact RO|exact Ix|exact Iy|exact Ep]. apply HQ, nth_In; auto.
Qed.
Print Assumptions C32_neighbor_lists.

Lemma ex_corner x : -5 <= x <= 5 -> in_cell ex_cube (V3 x 0 0).
Proof.
  intros H. exists ((x + 5) / 10), (1/2), (1/2). split; [unfold cell_point, comb, a1, a2, a3, ex_cube; apply vec_eq; simpl; field|]. repeat split; intros; lra.
Qed.
Definition ex_args : pyargs := PA PyNone (Some 3) None None None (Some true) None false.
Lemma ex_args_ok : no_sentinel ex_args /\ well_formed ex_args /\ asks_ball ex_args 3.
Proof.
  unfold no_sentinel, well_formed, asks_ball, mode_unset, ex_args. simpl. split; [repeat split; try discriminate; intros E; injection E as E; lra|].
  split; [split; [reflexivity|split; [discriminate|]]; intros; discriminate|]. auto.
Qed.
Example C32_ex : exists qs points, setting ex_cube points qs ex_args 3 /\ usable (BLink 2) ex_cube points /\
  exists x, in_range ex_cube points (nth 0 qs v0) 0 3 0 true all_images x.
Proof.
  exists [V3 (-4) 0 0], [V3 (-4) 0 0; V3 4 0 0]. destruct ex_args_ok as (S & W & A).
  assert (C : forall x, In x [V3 (-4) 0 0; V3 4 0 0] -> in_cell ex_cube x) by (intros x [<-|[<-|[]]]; apply ex_corner; lra).
  split; [|split].
  - constructor; auto; try (simpl; lra); try discriminate.
    + apply ex_cube_positive. + apply ex_cube_fp. + intros x [<-|[]]. apply ex_corner; lra.
    + unfold radius_ok. rewrite ex_cube_planes. simpl. repeat split; intros; lra.
  - destruct (C30_constructor_defined ex_cube [V3 (-4) 0 0; V3 4 0 0] 2) as (lc & E); auto; try discriminate; try lra.
    + apply ex_cube_positive. + rewrite ex_cube_planes. simpl. repeat split; intros; lra. + apply ex_cube_fp.
    + exists lc. split; auto. revert E. unfold lc_make. destruct (negb _); [discriminate|]. destruct (Reqb_spec 2 0); [lra|].
      destruct (compute_dimensions ex_cube 2) as [[[dx dy] dz]|]; [|discriminate]. destruct (_ || _ || _); [discriminate|]. cbv zeta. destruct (_ <? 1)%Z; [discriminate|].
      destruct (compute_cell_list _ _ _); [|discriminate]. simpl. intros E. injection E as <-. simpl. lra.
  - set (d := sep ex_cube [V3 (-4) 0 0; V3 4 0 0] (V3 (-4) 0 0) 1 1 0 0).
    assert (ED : d = V3 (-2) 0 0) by (unfold d, sep, flat, shift, comb, a1, a2, a3, ex_cube; apply vec_eq; simpl; ring).
    assert (N2 : norm d = 2) by (rewrite ED; unfold norm, dot; simpl; replace (_ + _) with (Rsqr 2) by (unfold Rsqr; ring); apply sqrt_Rsqr; lra).
    exists (Bond 0 1 (norm d) 1 d). exists 1%nat, 1%Z, 0%Z, 0%Z. cbn [nth]. fold d. rewrite N2. split; [simpl; lia|]. split; [repeat split; simpl; discriminate|]. split; [exact I|].
    split; [intros [_ ?]; discriminate|]. split; [lra|auto].
Qed.

(** ** C35 *)
Theorem C35_rejected (be : backend) (b : box) (points qs : list vec3) (p : pyargs) (res : option (list (list bond))) :
  be = BAABB \/ (exists cw, be = BLink cw) -> ~ fully_periodic b -> py_query be b points qs p res -> res = None.
Proof.
  intros HB NP. assert (C : checks_periodic be = true) by (destruct HB as [-> | [cw ->]]; reflexivity).
  unfold py_query. destruct (encode p) as [a|]; auto. intros (_ & _ & H). rewrite C in H.
  assert (F : b_px b && b_py b && b_pz b = false).
  { destruct (b_px b && b_py b && b_pz b) eqn:E; auto. exfalso. apply NP. apply andb_true_iff in E as [E E3]. apply andb_true_iff in E as [E1 E2]. repeat split; auto. }
  rewrite F in H. exact H.
Qed.
Print Assumptions C35_rejected.
(** and the rejection is an outcome, not a stuck state *)
Theorem C35_raises (be : backend) (b : box) (points qs : list vec3) (p : pyargs) :
  be = BAABB \/ (exists cw, be = BLink cw) -> ~ fully_periodic b -> constructed be b points -> qs <> [] -> py_query be b points qs p None.
Proof.
  intros HB NP HC HQ. assert (C : checks_periodic be = true) by (destruct HB as [-> | [cw ->]]; reflexivity).
  unfold py_query. destruct (encode p) as [a|]; auto. split; auto. split; auto. rewrite C.
  destruct (b_px b && b_py b && b_pz b) eqn:E; [|reflexivity]. exfalso. apply NP. apply andb_true_iff in E as [E E3]. apply andb_true_iff in E as [E1 E2]. repeat split; auto.
Qed.
Print Assumptions C35_raises.
Definition open_cube : box := set_periodic ex_cube false false false.
Lemma open_positive : positive open_cube.
Proof. exact ex_cube_positive. Qed.
(** A (box, points) pair and CellQuery answer queries in a box without periodicity, and they answer differently: the first uses open
    boundaries, the second periodic ones. *)
Theorem C35_unchecked_refuted : exists b points qs p, positive b /\ ~ fully_periodic b /\
  py_query BRaw b points qs p (Some [[]]) /\
  exists l x, py_query BCell b points qs p (Some [l]) /\ In x l.
Proof.
  exists open_cube, [V3 (-4) 0 0; V3 4 0 0], [V3 (-4) 0 0], ex_args. split; [apply open_positive|]. split; [intros (H & _); discriminate|].
  destruct ex_args_ok as (S & W & A). set (pts := [V3 (-4) 0 0; V3 4 0 0]). assert (N : (3 : R) <> -1) by lra.
  assert (NQ : nq_ok open_cube pts = true) by reflexivity.
  split.
  - apply (query_ball _ _ _ _ _ 3); auto. split; [split; auto|]. split; [discriminate|]. cbn [checks_periodic andb].
    change (Some [[]]) with (option_map (cons (@nil bond)) (Some [])). constructor; [|constructor]. apply single_ball; auto.
    cbn [ex_args pa_rmin pa_excl or_else].
    destruct (C29_ball_defined open_cube pts (V3 (-4) 0 0) 0 3 0 true) as (res & H1 & _ & H3); [discriminate|]. destruct res as [l|].
    + destruct (C29_ball_near_images open_cube pts (V3 (-4) 0 0) 0 3 0 true true l) as [_ HI]; auto; [apply open_positive|lra|].
      destruct l as [|x l]; [exact H1|]. exfalso. destruct (proj1 (HI x) (or_introl eq_refl)) as (j & i1 & i2 & i3 & Hj & HA & _ & HE & HR & _).
      destruct HA as (A1 & A2 & A3 & _). specialize (A1 eq_refl). specialize (A2 eq_refl). specialize (A3 eq_refl). subst.
      destruct j as [|[|j]]; [apply HE; auto| |simpl in Hj; lia]. revert HR. set (d := sep _ _ _ _ _ _ _).
      assert (ED : d = V3 8 0 0) by (unfold d, sep, flat, shift, comb, a1, a2, a3, open_cube, ex_cube; apply vec_eq; simpl; ring).
      rewrite ED. unfold norm, dot. simpl. replace (8 * 8 + 0 * 0 + 0 * 0) with (Rsqr 8) by (unfold Rsqr; ring). rewrite sqrt_Rsqr; lra.
    + exfalso. apply (proj1 H3 eq_refl). split; [lra|]. split; [lra|]. repeat split; intros; discriminate.
  - assert (C : forall x, In x pts -> in_cell ex_cube x) by (intros x [<-|[<-|[]]]; apply ex_corner; lra).
    assert (RO : radius_ok ex_cube 3) by (unfold radius_ok; rewrite ex_cube_planes; simpl; repeat split; intros; lra).
    destruct (C31_ball ex_cube pts (V3 (-4) 0 0) 0 3 0 true) as [H _]; auto; try discriminate; try lra.
    { apply ex_cube_positive. } { apply ex_cube_fp. } { apply ex_corner; lra. }
    destruct H as (l & HR & ND & HI). { split; [lra|]. split; [lra|auto]. }
    set (d := sep ex_cube pts (V3 (-4) 0 0) 1 1 0 0).
    assert (ED : d = V3 (-2) 0 0) by (unfold d, sep, flat, shift, comb, a1, a2, a3, ex_cube; apply vec_eq; simpl; ring).
    assert (N2 : norm d = 2) by (rewrite ED; unfold norm, dot; simpl; replace (_ + _) with (Rsqr 2) by (unfold Rsqr; ring); apply sqrt_Rsqr; lra).
    exists l, (Bond 0 1 (norm d) 1 d). split.
    + apply (query_ball _ _ _ _ _ 3); auto. split; [split; auto|]. split; [discriminate|]. cbn [checks_periodic andb].
      assert (Q : cq_ball open_cube pts (V3 (-4) 0 0) 0 3 0 true (Some l)) by (apply C31_flags_ignored, HR; auto).
      assert (CQ : cq_args_ok open_cube 3 (or_else (pa_rmin ex_args) 0) = true).
      { cbn [ex_args pa_rmin or_else]. unfold cq_ball in Q. destruct (cq_args_ok open_cube 3 0); auto. rewrite andb_false_r in Q. discriminate. }
      rewrite CQ. change (Some [l]) with (option_map (cons l) (Some [])). constructor; [|constructor]. apply single_ball; auto.
    + apply HI. exists 1%nat, 1%Z, 0%Z, 0%Z. fold d. rewrite N2. split; [simpl; lia|]. split; [repeat split; simpl; discriminate|]. split; [exact I|].
      split; [intros [_ ?]; discriminate|]. split; [lra|auto].
Qed.
Print Assumptions C35_unchecked_refuted.

(** ** C22 for query results *)
Lemma sep_direction b points q j i1 i2 i3 : in_space b (nth j points v0) -> in_space b q -> allowed b i1 i2 i3 ->
  image_of b (sep b points q j i1 i2 i3) (vsub (nth j points v0) q).
Proof.
  intros Hp Hq HA. exists (- i1)%Z, (- i2)%Z, (- i3)%Z. split.
  - destruct HA as (A1 & A2 & A3 & A4). repeat split; intros H; [apply A1 in H|apply A2 in H|apply A3 in H|apply A4 in H]; lia.
  - unfold sep. rewrite !flat_id by auto. unfold shift, comb. rewrite !opp_IZR. apply vec_eq; simpl; ring.
Qed.
Theorem C22_ball_query (be : backend) (b : box) (points qs : list vec3) (p : pyargs) (r : R) (ls : list (list bond)) (i : nat) (x : bond) :
  setting b points qs p r -> usable be b points -> py_query be b points qs p (Some ls) -> (i < length qs)%nat -> In x (nth i ls []) ->
  direction_ok b points qs x /\ bd x = norm (bv x) /\ bq x = i.
Proof.
  intros St U Q Hi Hx. destruct (C32_ball be b points qs p r St U) as (l1 & E & L & H). apply E in Q. injection Q as <-. destruct (H i Hi) as [_ I]. apply I in Hx.
  destruct St as [Hb FP Hne Hn HPt Hqne HQ S W A R0 R1 RO].
  destruct Hx as (j & i1 & i2 & i3 & Hj & HA & _ & _ & _ & ->). split; [|split; reflexivity]. unfold direction_ok. cbn [bv bp bq].
  apply sep_direction; auto; apply in_cell_space; auto; [apply HPt, nth_In|apply HQ, nth_In]; auto.
Qed.
Print Assumptions C22_ball_query.
(** LinkCell also answers with radii beyond half the box; its vectors still follow the convention. *)
Theorem C22_linkcell_any_radius (b : box) (points qs : list vec3) (cw : R) (lc : linkcell) (i : nat) (r_max r_min : R) (excl : bool) (l : list bond) (x : bond) :
  positive b -> fully_periodic b -> (0 < lc_width lc) -> lc_make b points cw = Some lc -> (forall p, In p points -> in_space b p) ->
  (i < length qs)%nat -> in_cell b (nth i qs v0) -> 0 <= r_min < r_max -> lc_ball lc (nth i qs v0) i r_max r_min excl (Some l) -> In x l ->
  direction_ok b points qs x /\ bd x = norm (bv x).
Proof.
  intros Hb FP Hw EL HP Hi Hq HR HB Hx. destruct (C30_ball_wrapped b points cw lc (nth i qs v0) i r_max r_min excl) as (l' & E & _ & I); auto.
  apply E in HB. injection HB as <-. apply I in Hx. destruct Hx as (j & Hj & _ & _ & ->). split; [|reflexivity]. unfold direction_ok. cbn [bv bp bq].
  apply C02_wrap_lattice_shift; [apply Hb|]. intros E2. simpl. rewrite (HP (nth j points v0)); auto; [|apply nth_In; auto]. rewrite (in_cell_space b (nth i qs v0) Hb Hq E2). ring.
Qed.
Print Assumptions C22_linkcell_any_radius.
