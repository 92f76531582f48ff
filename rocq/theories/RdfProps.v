(** C49: the radial distribution function. *)
From Verif Require Import HistProofs HistProofs2 HistProps ParProofs MatchEnvProofs RdfSpec.
From Coq Require Import Lra Lia.
Local Open Scope R_scope.

(** Constructor arguments are rejected exactly when they are as documented. *)
Theorem C49_reject bins r_max r_min : (0 <= bins)%Z ->
  (rdf_make bins r_max r_min = None <-> bins = 0%Z \/ r_max <= 0 \/ r_min < 0 \/ r_max <= r_min).
Proof.
  intros Hb. unfold rdf_make. destruct (Z.eqb_spec bins 0); [tauto|].
  destruct (Rle_bool_spec r_max 0), (Rlt_bool_spec r_min 0), (Rle_bool_spec r_max r_min); split; intros K; try discriminate; try tauto; destruct K as [K|[K|[K|K]]]; try contradiction; exfalso; lra.
Qed.

(** Bookkeeping: histories of the RDF and of its histogram. *)
Fixpoint erase (started : bool) (h : list rop) : list (cop rdf_data) :=
  match h with
  | [] => []
  | RCompute r f :: h => CCompute r (rdf_cin f) :: erase true h
  | RRead ev :: h => if started then CRead ev :: erase started h else erase started h
  | RMode _ :: h => erase started h
  end.
Lemma since_erase h : forall st acc, since (erase st h) (map rdf_cin acc) = map rdf_cin (rsince h acc).
Proof.
  induction h as [|[[|] f|ev|m] h IH]; intros st acc; simpl; auto.
  - apply (IH true [f]).
  - rewrite <- (IH true), map_app. reflexivity.
  - destruct st; simpl; apply IH.
Qed.
Lemma since_snoc {F} (h : list (cop F)) o : forall acc, since (h ++ [o]) acc = match o with CCompute true f => [f] | CCompute false f => since h acc ++ [f] | CRead _ => since h acc end.
Proof. induction h as [|[[|] g|e] h IH]; intros acc; simpl; auto. Qed.

Definition base_run (a : axis) (hc : list (cop rdf_data)) : option (bhc U32 rdf_data) :=
  run_history (u32 0) u32_add (bhc_make (u32 0) [a]) (map cop_hop hc).
Lemma base_snoc a hc o : base_run a (hc ++ [o]) = bind (base_run a hc) (fun s => run_hop (u32 0) u32_add s (cop_hop o)).
Proof. unfold base_run, run_history. rewrite map_app, fold_left_app. reflexivity. Qed.
Definition with_out (r : rdf) (s : bhc U32 rdf_data) (m : norm_mode) (p n : list R) : rdf := Rdf (rdf_bins r) (rdf_vol2 r) (rdf_vol3 r) s m p n.

Section history.
  Variables (r0 : rdf) (a : axis).
  Hypothesis Ha : valid_axes [a].
  Hypothesis Hbins : rdf_bins r0 = ax_n a.
  Let started (hc : list (cop rdf_data)) : bool := match since hc [] with [] => false | _ => true end.

  Record Rel (r : rdf) (hc : list (cop rdf_data)) (cur : norm_mode) (lat : option norm_mode) : Prop := {
    rel_run : base_run a hc = Some (rdf_state r);
    rel_ok : Forall (cop_ok [a]) hc;
    rel_mode : rdf_mode r = cur;
    rel_bins : rdf_bins r = rdf_bins r0; rel_v2 : rdf_vol2 r = rdf_vol2 r0; rel_v3 : rdf_vol3 r = rdf_vol3 r0;
    rel_last : bhc_last (rdf_state r) = None <-> since hc [] = [];
    rel_lat : match lat with
              | None => since hc [] = [] \/ bhc_reduce (rdf_state r) = true
              | Some m => since hc [] <> [] /\ bhc_reduce (rdf_state r) = false /\ exists r', rdf_reduce (rdf_set_mode r m) (rdf_state r) = Some r' /\ rdf_pcf r' = rdf_pcf r /\ rdf_nr r' = rdf_nr r
              end }.

  Lemma size1 : size_of (map ax_n [a]) = ax_n a.
  Proof. unfold size_of; simpl. destruct Ha as [_ ?]. destruct (ax_n a); lia. Qed.
  Lemma counts_ok hc ev : Forall (cop_ok [a]) hc -> execution 0 (Z.to_nat (ax_n a)) ev ->
    exists s, base_run a (hc ++ [CRead ev]) = Some s /\ bhc_frames s = length (since hc []) /\ (forall l f, since hc [] = l ++ [f] -> bhc_last s = Some (ci_data f)) /\
      rdf_counts s (Z.to_nat (ax_n a)) = Some (map (fun i => Z.of_nat (in_cells [a] [Z.of_nat i] (since hc [])) mod 2 ^ 32)%Z (seq 0 (Z.to_nat (ax_n a)))).
  Proof.
    intros Hok He. destruct (count_history [a] hc ev Ha Hok) as (s & E & N & L & C); [rewrite size1; exact He|].
    exists s. split; [unfold base_run; rewrite map_app; exact E|]. split; [exact N|]. split; [exact L|].
    unfold rdf_counts. apply omap_some. intros i Hi. apply in_seq in Hi. destruct (C [Z.of_nat i]) as (k & Ek & Vk).
    { constructor; [|constructor]. split; lia. }
    replace (row_major (map ax_n [a]) [Z.of_nat i]) with (Z.of_nat i) in Ek by (unfold row_major; simpl; lia).
    rewrite Ek. simpl. rewrite Vk. reflexivity.
  Qed.

  Lemma step_rel r hc cur lat o : Rel r hc cur lat -> rop_ok (ax_n a) o ->
    exists r' , rop_run r o = Some r' /\ exists hc' cur' lat', Rel r' hc' cur' lat' /\ hc' = hc ++ erase (started hc) [o] /\
      (forall h, read_mode (o :: h) (started hc) cur lat = read_mode h (started hc') cur' lat') /\
      (forall ev, o = RRead ev -> since hc [] <> [] -> lat' <> None).
  Proof.
    intros [E Ok M B V2 V3 L T] Ho. destruct o as [re f|ev|m]; simpl in Ho.
    - exists (rdf_compute r re f). split; [reflexivity|]. exists (hc ++ [CCompute re (rdf_cin f)]), cur, None.
      assert (Sn : since (hc ++ [CCompute re (rdf_cin f)]) [] <> []).
      { rewrite since_snoc. destruct re; [discriminate|]. intros X. apply app_eq_nil in X as [_ X]. discriminate. }
      split; [|split; [reflexivity|]].
      + constructor; auto.
        * rewrite base_snoc, E. reflexivity.
        * apply Forall_app. split; [exact Ok|]. constructor; [|constructor]. split; [exact Ho|].
          intros i p Hp. simpl in Hp. apply in_map_iff in Hp as (b & <- & _). reflexivity.
        * split; [discriminate|]. intros X. contradiction.
      + split; [|discriminate]. intros h. simpl. unfold started. destruct (since (hc ++ [CCompute re (rdf_cin f)]) []); [contradiction|reflexivity].
    - destruct (since hc []) as [|f0 fs] eqn:Es.
      + exists r. split; [simpl; unfold rdf_read; rewrite (proj2 L) by auto; reflexivity|]. exists hc, cur, lat.
        unfold started. simpl. rewrite Es. split; [constructor; auto; rewrite Es; auto|]. split; [symmetry; apply app_nil_r|]. split; [intros h; reflexivity|congruence].
      + destruct (counts_ok hc ev Ok Ho) as (s & Rs & Ns & Ls & Cs).
        pose proof Rs as Rs'. rewrite base_snoc, E in Rs. cbn [bind cop_hop run_hop] in Rs.
        assert (Lr : bhc_last (rdf_state r) <> None) by (intros X; apply L in X; discriminate).
        assert (Rst : bhc_reduce s = false).
        { unfold bhc_read in Rs. destruct (bhc_reduce (rdf_state r)) eqn:Er; [|congruence].
          destruct (collect _) as [ls|]; [|discriminate]. cbn [bind] in Rs. destruct (tlh_reduce_into _ _ _ _ _) as [c|]; [|discriminate]. cbn [bind] in Rs.
          injection Rs as <-. reflexivity. }
        assert (Ok' : Forall (cop_ok [a]) (hc ++ [CRead ev])).
        { apply Forall_app. split; [exact Ok|]. constructor; [|constructor]. simpl. fold (size_of (map ax_n [a])). change (execution 0 (Z.to_nat (size_of (map ax_n [a]))) ev). rewrite size1. exact Ho. }
        assert (Ln : exists l g, since hc [] = l ++ [g]).
        { rewrite Es. destruct (exists_last (l := f0 :: fs)) as (l & g & ->); [discriminate|]. eauto. }
        destruct Ln as (l & g & Ln). specialize (Ls l g Ln).
        destruct lat as [m|].
        * destruct T as (_ & Tr & T). assert (s = rdf_state r) by (unfold bhc_read in Rs; rewrite Tr in Rs; congruence). subst s.
          exists r. split; [simpl; unfold rdf_read; destruct (bhc_last (rdf_state r)); [rewrite Tr; reflexivity|reflexivity]|].
          exists (hc ++ [CRead ev]), cur, (Some m). split; [constructor; auto; rewrite ?since_snoc, ?Es; auto; split; [discriminate|auto]|].
          split; [simpl; unfold started; rewrite Es; reflexivity|]. split; [|discriminate]. intros h. unfold started. rewrite since_snoc, Es. reflexivity.
        * destruct T as [T|T]; [discriminate|].
          assert (Red : rdf_reduce r s <> None) by (unfold rdf_reduce; rewrite Ls, B, Hbins, Cs; discriminate).
          destruct (rdf_reduce r s) as [r'|] eqn:Er; [|congruence]. exists r'. split.
          { simpl. unfold rdf_read. destruct (bhc_last (rdf_state r)); [|congruence]. rewrite T, Rs. exact Er. }
          exists (hc ++ [CRead ev]), cur, (Some cur).
          pose proof Er as Er2. unfold rdf_reduce in Er2. rewrite Ls, B, Hbins, Cs in Er2. injection Er2 as Er2.
          assert (St : rdf_state r' = s) by (rewrite <- Er2; reflexivity).
          split; [constructor|].
          -- rewrite St. exact Rs'.
          -- exact Ok'.
          -- rewrite <- Er2. exact M.
          -- rewrite <- Er2. simpl. auto.
          -- rewrite <- Er2. exact V2.
          -- rewrite <- Er2. exact V3.
          -- rewrite St, Ls, since_snoc, Es. split; discriminate.
          -- rewrite since_snoc, Es, St. split; [discriminate|]. split; [exact Rst|].
             exists r'. split; [|split; reflexivity]. rewrite <- Er2. unfold rdf_reduce. cbn [rdf_set_mode rdf_bins rdf_vol2 rdf_vol3 rdf_mode]. rewrite Ls, Cs, M. reflexivity.
          -- split; [simpl; unfold started; rewrite Es; reflexivity|]. split; [|discriminate]. intros h. unfold started. rewrite since_snoc, Es. reflexivity.
    - exists (rdf_set_mode r m). split; [reflexivity|]. exists hc, m, lat. split; [|split; [simpl; rewrite app_nil_r; reflexivity|split; [reflexivity|discriminate]]].
      constructor; auto.
  Qed.

  Lemma run_rel h : Forall (rop_ok (ax_n a)) h -> forall r hc cur lat, Rel r hc cur lat ->
    exists r' hc' cur' lat', rdf_run r h = Some r' /\ Rel r' hc' cur' lat' /\ hc' = hc ++ erase (started hc) h /\
      read_mode h (started hc) cur lat = match lat' with Some m => m | None => cur' end.
  Proof.
    induction h as [|o h IH]; intros Hh r hc cur lat HR.
    - exists r, hc, cur, lat. simpl. rewrite app_nil_r. auto.
    - inversion Hh as [|? ? Ho Hh']; subst. destruct (step_rel r hc cur lat o HR Ho) as (r1 & E1 & hc1 & cur1 & lat1 & R1 & Hc1 & Md & _).
      destruct (IH Hh' r1 hc1 cur1 lat1 R1) as (r2 & hc2 & cur2 & lat2 & E2 & R2 & Hc2 & Md2).
      exists r2, hc2, cur2, lat2. split; [unfold rdf_run in *; simpl; rewrite E1; exact E2|]. split; [exact R2|]. split.
      + assert (St : started hc1 = match o with RCompute _ _ => true | _ => started hc end).
        { subst hc1. unfold started. destruct o as [re f|ev|m]; simpl.
          - rewrite since_snoc. destruct re; auto. destruct (since hc []); reflexivity.
          - destruct (since hc []) eqn:Es; [rewrite app_nil_r, Es; reflexivity|]. rewrite since_snoc, Es. reflexivity.
          - rewrite app_nil_r. reflexivity. }
        rewrite Hc2, St, Hc1, <- app_assoc. f_equal. destruct o as [re f|ev|m]; simpl; auto. destruct (started hc); reflexivity.
      + rewrite Md. exact Md2.
  Qed.
End history.

(** The bin contents as numbers of distances. *)
Lemma dist_add lo mid hi fs : lo <= mid <= hi -> (dist_count lo mid fs + dist_count mid hi fs = dist_count lo hi fs)%nat.
Proof.
  intros H. unfold dist_count. induction (flat_map ri_all fs) as [|b l IH]; simpl; auto.
  destruct (Rle_bool_spec lo (bd b)), (Rlt_bool_spec (bd b) mid), (Rle_bool_spec mid (bd b)), (Rlt_bool_spec (bd b) hi); simpl; try lia; exfalso; lra.
Qed.
Lemma cells_dist a i fs : (0 <= i < ax_n a)%Z -> in_cells [a] [i] (map rdf_cin fs) = dist_count (interval_lo a i) (interval_lo a (i + 1)) fs.
Proof.
  intros Hi. unfold in_cells, dist_count.
  assert (E : flat_map ci_all (map rdf_cin fs) = map (fun b => [bd b]) (flat_map ri_all fs)).
  { induction fs as [|f fs IH]; simpl; auto. rewrite IH, map_app. f_equal. unfold ci_all, ri_all; simpl.
    induction (range 0 (ri_n f)) as [|j l IHl]; simpl; auto. rewrite IHl, map_app. reflexivity. }
  rewrite E. clear E. induction (flat_map ri_all fs) as [|b l IH]; simpl; auto.
  assert (X : in_cellb [a] [i] [bd b] = Rle_bool (interval_lo a i) (bd b) && Rlt_bool (bd b) (interval_lo a (i + 1))).
  { apply Bool.eq_iff_eq_true. rewrite in_cellb_iff by (constructor; [exact Hi|constructor]). rewrite Bool.andb_true_iff. split.
    - intros I. inversion I as [|? ? ? ? ? ? _ [I1 I2] _]; subst. split; [apply Rle_bool_true|apply Rlt_bool_true]; auto.
    - intros [I1 I2]. constructor; [exact Hi| |constructor]. revert I1 I2. case Rle_bool_spec; case Rlt_bool_spec; intros; try discriminate; auto. }
  rewrite X. destruct (_ && _); simpl; rewrite IH; reflexivity.
Qed.
Lemma cumulate_nth q cs : forall acc i, (i < length cs)%nat ->
  nth i (rdf_cumulate q acc cs) 0 = acc + q * fold_right Rplus 0 (map IZR (firstn (S i) cs)).
Proof.
  induction cs as [|c cs IH]; intros acc i Hi; simpl in Hi; [lia|]. destruct i as [|i]; cbn [rdf_cumulate nth]; [simpl; ring|].
  rewrite IH by lia. cbn [firstn map fold_right]. ring.
Qed.
Lemma cumulate_length q cs : forall acc, length (rdf_cumulate q acc cs) = length cs.
Proof. induction cs; intros; simpl; auto. Qed.
Lemma edge_lo bins r_max r_min i : interval_lo (rdf_axis bins r_max r_min) (Z.of_nat i) = edge bins r_max r_min i.
Proof. unfold interval_lo, edge; simpl. rewrite INR_IZR_INZ. reflexivity. Qed.

Lemma firstn_S_nth {A} (l : list A) n d : (n < length l)%nat -> firstn (S n) l = firstn n l ++ [nth n l d].
Proof. revert n. induction l as [|x l IH]; intros [|n] H; simpl in *; auto; try lia. rewrite <- IH by lia. reflexivity. Qed.
(** C49: after any history of compute (with and without reset), mode changes and reads, rdf[i] is the number of bonds in bin i since
    the last reset over frames, points and what an ideal gas of the query points' density would have in the shell; n_r[i] the number
    of bonds up to the end of bin i over frames and query points; both refer to the box and the numbers of points of the last frame. *)
Theorem C49_values bins r_max r_min r0 h ev fs f :
  rdf_make bins r_max r_min = Some r0 -> (0 <= bins < 4294967295)%Z -> Forall (rop_ok bins) h -> execution 0 (Z.to_nat bins) ev ->
  rsince h [] = fs ++ [f] -> data_ok (read_mode h false Exact None) (ri_data f) -> (Z.of_nat (dist_count r_min r_max (fs ++ [f])) < 2 ^ 32)%Z ->
  exists r, rdf_run r0 (h ++ [RRead ev]) = Some r /\ length (rdf_pcf r) = Z.to_nat bins /\ length (rdf_nr r) = Z.to_nat bins /\
    let e := edge bins r_max r_min in let d := ri_data f in let nf := INR (length (fs ++ [f])) in
    forall i, (i < Z.to_nat bins)%nat ->
      nth i (rdf_pcf r) 0 * (density (read_mode h false Exact None) d * shell (rd_2d d) (e i) (e (S i)) * INR (rd_np d) * nf)
        = INR (dist_count (e i) (e (S i)) (fs ++ [f])) /\
      nth i (rdf_nr r) 0 * (INR (rd_nqp d) * nf) = INR (dist_count r_min (e (S i)) (fs ++ [f])).
Proof.
  intros Mk Hb Hh He Hs Hd Small.
  assert (HM : rdf_make bins r_max r_min <> None) by congruence.
  assert (Pre : (0 < bins)%Z /\ 0 < r_max /\ 0 <= r_min /\ r_min < r_max).
  { destruct (Z.eq_dec bins 0); [|destruct (Rle_lt_dec r_max 0); [|destruct (Rlt_le_dec r_min 0); [|destruct (Rle_lt_dec r_max r_min)]]];
      try (exfalso; apply HM; apply (C49_reject bins r_max r_min); [lia|tauto]). repeat split; auto; lia. }
  clear HM. destruct Pre as (Hb0 & HR & Hr0 & Hrr).
  set (a := rdf_axis bins r_max r_min).
  assert (Ha : valid_axes [a]).
  { split; [constructor; [|constructor]; split; [simpl; unfold OVERFLOW_BIN; lia|exact Hrr]|]. unfold size_of; simpl. unfold OVERFLOW_BIN. lia. }
  pose proof Mk as Mk'. unfold rdf_make in Mk. destruct (bins =? 0)%Z; [discriminate|]. destruct (Rle_bool r_max 0); [discriminate|].
  destruct (Rlt_bool r_min 0); [discriminate|]. destruct (Rle_bool r_max r_min); [discriminate|]. cbv zeta in Mk. fold a in Mk. match type of Mk with Some ?x = Some _ => assert (Mk2 : x = r0) by congruence end. clear Mk. rename Mk2 into Mk.
  assert (Bn : rdf_bins r0 = ax_n a) by (rewrite <- Mk; reflexivity).
  assert (R0 : Rel r0 a r0 [] Exact None).
  { constructor; try (rewrite <- Mk; reflexivity); auto. rewrite <- Mk. simpl. split; auto. }
  destruct (run_rel r0 a Ha Bn h Hh r0 [] Exact None R0) as (r1 & hc1 & cur1 & lat1 & E1 & R1 & Hc1 & Md1).
  simpl in Hc1, Md1. assert (S1 : since hc1 [] = map rdf_cin (fs ++ [f])) by (subst hc1; rewrite <- Hs; apply (since_erase h false [])).
  assert (NE : since hc1 [] <> []) by (rewrite S1, map_app; intros X; apply app_eq_nil in X as [_ X]; discriminate).
  destruct (step_rel r0 a Ha Bn r1 hc1 cur1 lat1 (RRead ev) R1 He) as (r & E2 & hc2 & cur2 & lat2 & R2 & Hc2 & Md2 & Lt2).
  specialize (Lt2 ev eq_refl NE). destruct lat2 as [m|]; [|congruence]. clear Lt2.
  assert (Mm : read_mode h false Exact None = m).
  { rewrite Md1. specialize (Md2 []). simpl in Md2. rewrite <- Md2. destruct (since hc1 []); [congruence|]. destruct lat1; reflexivity. }
  rewrite Mm in *. simpl in Hc2. assert (Hc2' : hc2 = hc1 ++ [CRead ev]) by (destruct (since hc1 []); [congruence|exact Hc2]). clear Hc2.
  destruct R2 as [Rr Ro Rm Rb R2 R3 Rl (RS & Rf & r' & Re & Rp & Rn)].
  destruct (counts_ok r0 a Ha Bn hc1 ev (rel_ok _ _ _ _ _ _ R1) He) as (s & Es & Fs & Ls & Cs).
  rewrite <- Hc2', Rr in Es. injection Es as <-. specialize (Ls (map rdf_cin fs) (rdf_cin f)). rewrite S1, map_app in Ls. specialize (Ls eq_refl).
  rewrite S1, map_length in Fs.
  match type of Cs with _ = Some ?x => set (cs := x) in Cs end.
  unfold rdf_reduce in Re. rewrite Ls in Re. cbn [rdf_set_mode rdf_bins rdf_mode rdf_vol2 rdf_vol3] in Re. rewrite Rb, Bn in Re. rewrite Cs in Re.
  cbv zeta in Re. match type of Re with Some ?x = Some _ => assert (Re2 : x = r') by congruence end. clear Re. rename Re2 into Re. rewrite Fs in Re.
  assert (Lc : length cs = Z.to_nat bins) by (unfold cs; rewrite map_length, seq_length; reflexivity).
  assert (Hedge : forall i j, (i <= j)%nat -> edge bins r_max r_min i <= edge bins r_max r_min j).
  { intros i j Hij. unfold edge. apply Rplus_le_compat_l. apply Rmult_le_compat_r; [|apply le_INR; exact Hij].
    apply Rlt_le, Rdiv_lt_0_compat; [lra|apply (IZR_lt 0); lia]. }
  assert (Hlast : edge bins r_max r_min (Z.to_nat bins) = r_max).
  { unfold edge. rewrite INR_IZR_INZ, Z2Nat.id by lia. field. apply not_0_IZR. lia. }
  assert (Hfirst : edge bins r_max r_min 0 = r_min) by (unfold edge; simpl; ring).
  assert (Hlo : forall i, r_min <= edge bins r_max r_min i) by (intros i; pose proof (Hedge 0%nat i ltac:(lia)) as X; rewrite Hfirst in X; exact X).
  assert (Hhi : forall i, (i <= Z.to_nat bins)%nat -> edge bins r_max r_min i <= r_max) by (intros i Hi; pose proof (Hedge i _ Hi) as X; rewrite Hlast in X; exact X).
  assert (Part : forall i, (i < Z.to_nat bins)%nat -> (dist_count (edge bins r_max r_min i) (edge bins r_max r_min (S i)) (fs ++ [f]) <= dist_count r_min r_max (fs ++ [f]))%nat).
  { intros i Hi. assert (A1 := Hlo i). assert (A2 := Hhi (S i) Hi). assert (A3 := Hedge i (S i) ltac:(lia)).
    rewrite <- (dist_add r_min (edge bins r_max r_min i) r_max) by lra. rewrite <- (dist_add (edge bins r_max r_min i) (edge bins r_max r_min (S i)) r_max) by lra. lia. }
  assert (Vc : forall i, (i < Z.to_nat bins)%nat -> nth i cs 0%Z = Z.of_nat (dist_count (edge bins r_max r_min i) (edge bins r_max r_min (S i)) (fs ++ [f]))).
  { intros i Hi. unfold cs. rewrite (nth_map_lt _ _ _ 0%nat) by (rewrite seq_length; exact Hi). rewrite seq_nth by exact Hi. simpl plus.
    rewrite S1, cells_dist by (change (ax_n a) with bins; lia). replace (Z.of_nat i + 1)%Z with (Z.of_nat (S i)) by lia. unfold a. rewrite !edge_lo.
    apply Z.mod_small. specialize (Part i Hi). lia. }
  destruct Hd as (Dv & Dp & Dq).
  set (nf := INR (length (fs ++ [f]))) in *. assert (Nf : 0 < nf) by (unfold nf; rewrite app_length; apply lt_0_INR; simpl; lia).
  assert (Np : 0 < INR (rd_np (ri_data f))) by (apply lt_0_INR; exact Dp).
  assert (Nq : 0 < INR (rd_nqp (ri_data f))) by (apply lt_0_INR; destruct m; lia).
  exists r. split; [unfold rdf_run; rewrite ofold_app; unfold rdf_run in E1; rewrite E1; simpl; simpl in E2; rewrite E2; reflexivity|].
  rewrite <- Rp, <- Rn, <- Re. cbn [rdf_pcf rdf_nr]. split; [rewrite map_length, seq_length; reflexivity|].
  split; [rewrite cumulate_length; exact Lc|]. cbv zeta. intros i Hi. split.
  - rewrite (nth_map_lt _ _ _ 0%nat) by (rewrite seq_length; exact Hi). rewrite seq_nth by exact Hi. simpl plus. rewrite (Vc i Hi), <- INR_IZR_INZ.
    assert (Sh : nth i (if rd_2d (ri_data f) then rdf_vol2 r else rdf_vol3 r) 0 = shell (rd_2d (ri_data f)) (edge bins r_max r_min i) (edge bins r_max r_min (S i))).
    { rewrite R2, R3, <- Mk. cbn [rdf_vol2 rdf_vol3].
      assert (Ed : forall j, (j <= Z.to_nat bins)%nat -> nth j (bin_edges a) 0 = edge bins r_max r_min j).
      { intros j Hj. rewrite <- (Nat2Z.id j) at 1. rewrite bin_edges_nth by (simpl; lia). apply edge_lo. }
      destruct (rd_2d (ri_data f)); rewrite (nth_map_lt _ _ _ 0%nat) by (rewrite seq_length; exact Hi); rewrite seq_nth by exact Hi; cbv zeta; simpl plus;
        rewrite !Ed by lia; [rewrite shell_2d|rewrite shell_3d]; reflexivity. }
    cbn [rdf_cin ci_data]. rewrite Sh. set (sh := shell _ _ _). assert (Sp : 0 < sh).
    { apply shell_pos. split; [apply Rle_trans with r_min; [lra|apply Hlo]|]. unfold edge. apply Rplus_lt_compat_l.
      apply Rmult_lt_compat_r; [apply Rdiv_lt_0_compat; [lra|apply (IZR_lt 0); lia]|apply lt_INR; lia]. }
    unfold rdf_prefactor, density. fold nf. destruct m.
    + field. repeat split; lra.
    + assert (Q1 : 0 < INR (rd_nqp (ri_data f)) - 1) by (apply lt_INR in Dq; simpl in Dq; lra).
      rewrite minus_IZR, <- INR_IZR_INZ. field. repeat split; lra.
  - rewrite cumulate_nth by lia. cbn [rdf_cin ci_data].
    assert (Sum : fold_right Rplus 0 (map IZR (firstn (S i) cs)) = INR (dist_count r_min (edge bins r_max r_min (S i)) (fs ++ [f]))).
    { clear - Hi Vc Lc Hedge Hfirst Hlo. assert (G : forall n, (n <= Z.to_nat bins)%nat -> fold_right Rplus 0 (map IZR (firstn n cs)) = INR (dist_count r_min (edge bins r_max r_min n) (fs ++ [f]))).
      { induction n as [|n IH]; intros Hn.
        - rewrite Hfirst. unfold dist_count. simpl. assert (X : filter (fun b => Rle_bool r_min (bd b) && Rlt_bool (bd b) r_min) (flat_map ri_all (fs ++ [f])) = []).
          { induction (flat_map ri_all (fs ++ [f])) as [|b l IHl]; simpl; auto. destruct (Rle_bool_spec r_min (bd b)), (Rlt_bool_spec (bd b) r_min); simpl; auto; lra. }
          rewrite X. reflexivity.
        - rewrite (firstn_S_nth cs n 0%Z) by lia. rewrite map_app, fold_right_app. simpl fold_right at 2. rewrite Rplus_0_r.
          assert (F : forall l x, fold_right Rplus x l = fold_right Rplus 0 l + x) by (induction l as [|y l IHl]; intros x; simpl; [ring|rewrite IHl; ring]).
          rewrite F, IH by lia. rewrite Vc by lia. rewrite <- INR_IZR_INZ, <- plus_INR. f_equal. apply dist_add.
          split; [apply Hlo|apply Hedge; lia]. }
      apply G. lia. }
    rewrite Sum. field. split; lra.
Qed.

(** n_r never decreases, ends at the average number of bonds in range, and the shells add up to the whole shell. *)
Theorem C49_cumulative bins r_max r_min r0 h ev fs f :
  rdf_make bins r_max r_min = Some r0 -> (0 <= bins < 4294967295)%Z -> Forall (rop_ok bins) h -> execution 0 (Z.to_nat bins) ev ->
  rsince h [] = fs ++ [f] -> data_ok (read_mode h false Exact None) (ri_data f) -> (Z.of_nat (dist_count r_min r_max (fs ++ [f])) < 2 ^ 32)%Z ->
  exists r, rdf_run r0 (h ++ [RRead ev]) = Some r /\
    (forall i j, (i <= j < Z.to_nat bins)%nat -> nth i (rdf_nr r) 0 <= nth j (rdf_nr r) 0) /\
    nth (Z.to_nat bins - 1) (rdf_nr r) 0 = INR (dist_count r_min r_max (fs ++ [f])) / (INR (rd_nqp (ri_data f)) * INR (length (fs ++ [f]))) /\
    fold_right Rplus 0 (map (fun i => shell (rd_2d (ri_data f)) (edge bins r_max r_min i) (edge bins r_max r_min (S i))) (seq 0 (Z.to_nat bins)))
      = shell (rd_2d (ri_data f)) r_min r_max.
Proof.
  intros Mk Hb Hh He Hs Hd Small.
  destruct (C49_values bins r_max r_min r0 h ev fs f Mk Hb Hh He Hs Hd Small) as (r & E & Lp & Ln & V). cbv zeta in V.
  assert (Pre : (0 < bins)%Z /\ r_min < r_max).
  { assert (HM : rdf_make bins r_max r_min <> None) by congruence.
    destruct (Z.eq_dec bins 0); [|destruct (Rle_lt_dec r_max r_min)]; try (exfalso; apply HM; apply (C49_reject bins r_max r_min); [lia|tauto]). split; auto; lia. }
  destruct Pre as [Hb0 Hrr].
  assert (Hedge : forall i j, (i <= j)%nat -> edge bins r_max r_min i <= edge bins r_max r_min j).
  { intros i j Hij. unfold edge. apply Rplus_le_compat_l. apply Rmult_le_compat_r; [|apply le_INR; exact Hij].
    apply Rlt_le, Rdiv_lt_0_compat; [lra|apply (IZR_lt 0); lia]. }
  assert (Hlast : edge bins r_max r_min (Z.to_nat bins) = r_max).
  { unfold edge. rewrite INR_IZR_INZ, Z2Nat.id by lia. field. apply not_0_IZR. lia. }
  assert (Hfirst : edge bins r_max r_min 0 = r_min) by (unfold edge; simpl; ring).
  assert (Hlo : forall i, r_min <= edge bins r_max r_min i) by (intros i; pose proof (Hedge 0%nat i ltac:(lia)) as X; rewrite Hfirst in X; exact X).
  assert (Nf : 0 < INR (length (fs ++ [f]))) by (rewrite app_length; apply lt_0_INR; simpl; lia).
  assert (Nq : 0 < INR (rd_nqp (ri_data f))) by (apply lt_0_INR; destruct Hd as (_ & _ & Dq); destruct (read_mode h false Exact None); lia).
  assert (Nn : 0 < INR (rd_nqp (ri_data f)) * INR (length (fs ++ [f]))) by (apply Rmult_lt_0_compat; auto).
  exists r. split; [exact E|]. split; [|split].
  - intros i j Hij. destruct (V i ltac:(lia)) as [_ Vi], (V j ltac:(lia)) as [_ Vj].
    apply (Rmult_le_reg_r _ _ _ Nn). rewrite Vi, Vj. apply le_INR.
    rewrite <- (dist_add r_min (edge bins r_max r_min (S i)) (edge bins r_max r_min (S j))); [lia|]. split; [apply Hlo|apply Hedge; lia].
  - destruct (V (Z.to_nat bins - 1)%nat ltac:(lia)) as [_ Vi]. replace (S (Z.to_nat bins - 1)) with (Z.to_nat bins) in Vi by lia. rewrite Hlast in Vi.
    rewrite <- Vi. field. split; lra.
  - assert (G : forall n k, fold_right Rplus 0 (map (fun i => shell (rd_2d (ri_data f)) (edge bins r_max r_min i) (edge bins r_max r_min (S i))) (seq k n))
      = shell (rd_2d (ri_data f)) (edge bins r_max r_min k) (edge bins r_max r_min (k + n))).
    { clear. induction n as [|n IH]; intros k; simpl.
      - rewrite Nat.add_0_r. destruct (rd_2d (ri_data f)); rewrite ?shell_2d, ?shell_3d; ring.
      - rewrite IH, shell_add. f_equal. f_equal. lia. }
    rewrite G, Hfirst. simpl plus. rewrite Hlast. reflexivity.
Qed.

(** Concrete frames: [nb] bonds of length 1/2 among [n] points in a volume of 1. *)
Definition ex_frame (n nb : nat) : rin := RI 1 (fun _ => repeat (Bond 0 0 (1/2) 1 (V3 (1/2) 0 0)) nb) [(0%nat, 0%nat)] (RD 1 false n n).
Lemma ex_count n nb lo hi : lo <= 1/2 < hi -> dist_count lo hi [ex_frame n nb] = nb.
Proof.
  intros H. unfold dist_count, ri_all; simpl. rewrite !app_nil_r. induction nb as [|k IH]; simpl; auto.
  rewrite Rle_bool_true, Rlt_bool_true by lra. simpl. rewrite IH. reflexivity.
Qed.
Lemma ex_count_app lo hi fs gs : dist_count lo hi (fs ++ gs) = (dist_count lo hi fs + dist_count lo hi gs)%nat.
Proof. unfold dist_count. rewrite flat_map_app, filter_app, app_length. reflexivity. Qed.
Lemma ex_exec n : execution 0 n (map (fun i => (0%nat, i)) (range 0 n)).
Proof. exact (sequential_execution 0 n 0). Qed.
Lemma ex_ok n nb bins re : rop_ok bins (RCompute re (ex_frame n nb)).
Proof. exact (sequential_execution 0 1 0). Qed.
Lemma ex_make : exists r0, rdf_make 1 1 0 = Some r0.
Proof.
  destruct (rdf_make 1 1 0) as [r|] eqn:E; [eauto|]. exfalso. apply (C49_reject 1 1 0) in E; [|lia].
  destruct E as [E|[E|[E|E]]]; [discriminate|lra|lra|lra].
Qed.
Lemma ex_edge : edge 1 1 0 0 = 0 /\ edge 1 1 0 1 = 1. Proof. unfold edge; simpl. split; field. Qed.
Example C49_ex : exists r0, rdf_make 1 1 0 = Some r0 /\ Forall (rop_ok 1) [RCompute true (ex_frame 2 1); RRead [(0%nat, 0%nat)]; RCompute false (ex_frame 2 3)] /\
  rsince [RCompute true (ex_frame 2 1); RRead [(0%nat, 0%nat)]; RCompute false (ex_frame 2 3)] [] = [ex_frame 2 1] ++ [ex_frame 2 3] /\
  data_ok Exact (ri_data (ex_frame 2 3)) /\ dist_count 0 1 ([ex_frame 2 1] ++ [ex_frame 2 3]) = 4%nat.
Proof.
  destruct ex_make as [r0 E]. exists r0. split; [exact E|]. split; [repeat constructor; try apply ex_ok; exact (sequential_execution 0 1 0)|].
  split; [reflexivity|]. split; [repeat split; simpl; try lia; lra|]. rewrite ex_count_app, !ex_count by lra. reflexivity.
Qed.

(** Changing the normalisation mode after the values were read has no effect until the next compute. *)
Theorem C49_mode_refuted : exists r0 f h ev r, rdf_make 1 1 0 = Some r0 /\ Forall (rop_ok 1) h /\ execution 0 1 ev /\ rsince h [] = [f] /\
  data_ok FiniteSize (ri_data f) /\ rdf_run r0 (h ++ [RRead ev]) = Some r /\ rdf_mode r = FiniteSize /\
  nth 0 (rdf_pcf r) 0 * (density FiniteSize (ri_data f) * shell false 0 1 * INR (rd_np (ri_data f)) * 1) <> INR (dist_count 0 1 [f]).
Proof.
  destruct ex_make as [r0 Mk]. set (f := ex_frame 2 1). set (ev := [(0%nat, 0%nat)]). set (h := [RCompute true f; RRead ev; RMode FiniteSize]).
  assert (He : execution 0 1 ev) by exact (sequential_execution 0 1 0).
  assert (Hh : Forall (rop_ok 1) h) by (repeat constructor; [apply ex_ok|exact He]).
  destruct (C49_values 1 1 0 r0 h ev [] f Mk ltac:(lia) Hh He eq_refl) as (r & E & _ & _ & V).
  { repeat split; simpl; try lia; lra. }
  { simpl app. unfold f. rewrite ex_count by lra. reflexivity. }
  exists r0, f, h, ev, r. split; [exact Mk|]. split; [exact Hh|]. split; [exact He|]. split; [reflexivity|].
  split; [repeat split; simpl; try lia; lra|]. split; [exact E|]. split.
  - revert E. unfold rdf_run, h; simpl. destruct (rdf_read (rdf_compute r0 true f) ev) as [r1|]; [|discriminate]. unfold rdf_read at 1.
    destruct (bhc_last _); [|intros X; injection X as <-; reflexivity]. destruct (bhc_reduce _); [|intros X; injection X as <-; reflexivity].
    destruct (bhc_read _ _ _ _) as [s|]; [|discriminate]. unfold rdf_reduce. destruct (bhc_last s); [|discriminate]. destruct (rdf_counts _ _); [|discriminate].
    intros X; injection X as <-; reflexivity.
  - destruct (V 0%nat ltac:(simpl; lia)) as [V1 _]. destruct ex_edge as [E0 E1]. rewrite E0, E1 in V1. change (read_mode h false Exact None) with Exact in V1.
    unfold f in *. simpl app in V1. rewrite ex_count in * by lra. unfold density in *. simpl in V1. simpl. intros X. lra.
Qed.

(** With different numbers of points in the frames the result is neither the mean over frames nor the mean over all query points. *)
Theorem C49_frames_refuted : exists r0 f g h ev r, rdf_make 1 1 0 = Some r0 /\ Forall (rop_ok 1) h /\ execution 0 1 ev /\ rsince h [] = [f; g] /\
  data_ok Exact (ri_data f) /\ data_ok Exact (ri_data g) /\ rdf_run r0 (h ++ [RRead ev]) = Some r /\
  nth 0 (rdf_nr r) 0 <> (INR (dist_count 0 1 [f]) / INR (rd_nqp (ri_data f)) + INR (dist_count 0 1 [g]) / INR (rd_nqp (ri_data g))) / 2 /\
  nth 0 (rdf_nr r) 0 <> INR (dist_count 0 1 [f; g]) / (INR (rd_nqp (ri_data f)) + INR (rd_nqp (ri_data g))).
Proof.
  destruct ex_make as [r0 Mk]. set (f := ex_frame 1 1). set (g := ex_frame 2 4). set (ev := [(0%nat, 0%nat)]). set (h := [RCompute true f; RCompute false g]).
  assert (He : execution 0 1 ev) by exact (sequential_execution 0 1 0).
  assert (Hh : Forall (rop_ok 1) h) by (repeat constructor; apply ex_ok).
  assert (Ct : dist_count 0 1 ([f] ++ [g]) = 5%nat) by (rewrite ex_count_app; unfold f, g; rewrite !ex_count by lra; reflexivity).
  destruct (C49_values 1 1 0 r0 h ev [f] g Mk ltac:(lia) Hh He eq_refl) as (r & E & _ & _ & V).
  { repeat split; simpl; try lia; lra. }
  { rewrite Ct. reflexivity. }
  exists r0, f, g, h, ev, r. split; [exact Mk|]. split; [exact Hh|]. split; [exact He|]. split; [reflexivity|].
  split; [repeat split; simpl; try lia; lra|]. split; [repeat split; simpl; try lia; lra|]. split; [exact E|].
  destruct (V 0%nat ltac:(simpl; lia)) as [_ V1]. destruct ex_edge as [E0 E1]. rewrite E1, Ct in V1. change ([f; g]) with ([f] ++ [g]). rewrite Ct.
  unfold f, g in *. rewrite !ex_count by lra. simpl in V1. simpl. split; intros X; lra.
Qed.
Print Assumptions C49_values.
Print Assumptions C49_cumulative.
