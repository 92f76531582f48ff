(** C58: SolidLiquid. *)
From Verif Require Import DsetProofs DsetProps ClusterModel ClusterProofs RBase Vec ParProofs NListProofs NListProps MatchEnvProofs LocalDescProps AccumProofs ClusterProps FilterProps SteinProofs SteinProofs2 SteinProofs3 SteinProofs4 SteinProofs5 SteinProps.
From Coq Require Import Permutation Relations Reals ZArith List Lra Lia Bool Classical.
From Verif Require Import HarmProofs SolidSpec CplxSum.
From Verif Require Import MArrayModel.
Import ListNotations.
Local Open Scope R_scope.
Add Ring cplx_ring_inst : cplx_ring.

Theorem C58_constructor q : sq_accepts q = true <-> 0 <= q.
Proof. unfold sq_accepts. destruct (Rltb_spec q 0); simpl; split; intros; try discriminate; try reflexivity; lra. Qed.
(** A threshold that is no integer is rounded down: the same classification as with the real number would need rounding up. *)
Theorem C58_threshold x n : sq_threshold x = Some n <-> INR n <= x < INR n + 1.
Proof.
  unfold sq_threshold. destruct (base_Int_part x) as [A B]. destruct (Z.ltb_spec (Int_part x) 0) as [N|N].
  - split; [discriminate|]. intros [H _]. exfalso. assert (0 <= INR n) by apply pos_INR. assert (Q : IZR (Int_part x) <= -1) by (apply IZR_le; lia). lra.
  - assert (E : INR (Z.to_nat (Int_part x)) = IZR (Int_part x)) by (rewrite INR_IZR_INZ, Z2Nat.id by exact N; reflexivity). split.
    + intros H. injection H as <-. rewrite E. lra.
    + intros [H1 H2]. f_equal. rewrite INR_IZR_INZ in H1, H2. apply Nat2Z.inj. rewrite Z2Nat.id by exact N. assert (L1 : IZR (Int_part x) < IZR (Z.of_nat n + 1)) by (rewrite plus_IZR; lra). assert (L2 : IZR (Z.of_nat n) < IZR (Int_part x + 1)) by (rewrite plus_IZR; lra). apply lt_IZR in L1. apply lt_IZR in L2. lia.
Qed.

(** * Products of rows *)
Lemma row_dot_fold (f g : nat -> cplx) n z : fold_left (fun acc p => oadd acc (omul (fst p) (option_map cconj (snd p)))) (map (fun i => (Some (f i), Some (g i))) (seq 0 n)) (Some z) = Some (cadd z (csum n (fun i => cmul (f i) (cconj (g i))))).
Proof.
  revert z. induction n as [|n IH]; intros z; [simpl; f_equal; ring|]. rewrite seq_S, map_app, fold_left_app, IH. cbn [map fold_left fst snd omul option_map oadd csum plus]. f_equal. ring.
Qed.
Lemma combine_map2 {A B C} (f : A -> B) (g : A -> C) l : combine (map f l) (map g l) = map (fun x => (f x, g x)) l.
Proof. induction l as [|x l IH]; simpl; [reflexivity|]. rewrite IH. reflexivity. Qed.
Lemma fst_csum n f : fst (csum n f) = nsum n (fun k => fst (f k)).
Proof. induction n as [|n IH]; [reflexivity|]. simpl. rewrite IH. reflexivity. Qed.
Lemma row_dot_val l q q' : exists z, row_dot (rowval l q) (rowval l q') = Some z /\ fst z = nsum (2 * l + 1) (fun k => fst (cmul (q k) (cconj (q' k)))).
Proof.
  unfold row_dot, rowval. rewrite combine_map2, row_dot_fold. eexists. split; [reflexivity|]. replace (cadd c0 (csum (2 * l + 1) (fun i => cmul (q (m_of l i)) (cconj (q' (m_of l i)))))) with (csum (2 * l + 1) (fun i => cmul (q (m_of l i)) (cconj (q' (m_of l i))))) by ring.
  rewrite fst_csum. apply (nsum_m_of l (fun k => fst (cmul (q k) (cconj (q' k))))).
Qed.
Lemma row_dot_none l q : row_dot (rowval l q) (norow l) = None.
Proof.
  unfold row_dot, rowval, norow. rewrite combine_map2. replace (2 * l + 1)%nat with (S (2 * l)) by lia. cbn [seq map fold_left fst snd omul option_map oadd].
  generalize (seq 1 (2 * l)). induction l0 as [|x l0 IH]; [reflexivity|]. cbn [map fold_left]. exact IH.
Qed.

(** * The loop over query points *)
Lemma wr_upd {T} (a : list T) i x : (i < length a)%nat -> wr a i x = Some (MArrayModel.upd a i x).
Proof. apply wr_some. Qed.
Lemma sq_bonds_spec c nl qlm ql i (v : nat -> option R) : (forall p, (p < length (nl_bonds nl))%nat -> sq_value c qlm ql (nth p (nl_bonds nl) bond0) = Some (v p)) -> sorted_q (nl_bonds nl) ->
  forall fuel cur out, length out = length (nl_bonds nl) -> (length (nl_bonds nl) < fuel + cur)%nat -> (forall j, (cur <= j < length (nl_bonds nl))%nat -> (i <= bq (nth j (nl_bonds nl) bond0))%nat) ->
  exists out', sq_bonds fuel c nl qlm ql i cur out = Some out' /\ length out' = length (nl_bonds nl) /\
    forall p, (p < length (nl_bonds nl))%nat -> nth p out' None = if ((cur <=? p) && (bq (nth p (nl_bonds nl) bond0) =? i))%nat%bool then v p else nth p out None.
Proof.
  intros V S. set (n := length (nl_bonds nl)) in *. induction fuel as [|fuel IH]; intros cur out L F G.
  - exists out. split; [reflexivity|]. split; [exact L|]. intros p Hp. destruct (Nat.leb_spec cur p); [lia|reflexivity].
  - cbn [sq_bonds]. fold n. destruct (Nat.ltb_spec cur n) as [C|C]; cbn [andb].
    + destruct (Nat.eqb_spec (bq (nth cur (nl_bonds nl) bond0)) i) as [E|E].
      * rewrite V by exact C. rewrite wr_upd by lia. destruct (IH (Datatypes.S cur) (MArrayModel.upd out cur (v cur))) as (out' & R & L' & N).
        { rewrite MArrayProofs.upd_length. exact L. } { lia. } { intros j Hj. apply G. lia. }
        exists out'. split; [exact R|]. split; [exact L'|]. intros p Hp. rewrite N by exact Hp. rewrite nth_upd_if by lia. destruct (Nat.eqb_spec p cur) as [->|NE].
        -- rewrite E, Nat.eqb_refl. destruct (Nat.leb_spec (Datatypes.S cur) cur); [lia|]. destruct (Nat.leb_spec cur cur); [reflexivity|lia].
        -- destruct (Nat.leb_spec (Datatypes.S cur) p), (Nat.leb_spec cur p); try reflexivity; lia.
      * exists out. split; [reflexivity|]. split; [exact L|]. intros p Hp. destruct (Nat.leb_spec cur p) as [Q|Q]; [|reflexivity]. cbn [andb]. destruct (Nat.eqb_spec (bq (nth p (nl_bonds nl) bond0)) i) as [E2|E2]; [|reflexivity]. exfalso.
        assert (G1 := G cur ltac:(lia)). destruct (Nat.eq_dec cur p) as [->|NE]; [contradiction|]. assert (G2 := S cur p ltac:(fold n; lia)). lia.
    + exists out. split; [reflexivity|]. split; [exact L|]. intros p Hp. destruct (Nat.leb_spec cur p); [lia|reflexivity].
Qed.
Lemma sq_all_spec c nl qlm ql ev (v : nat -> option R) : (forall p, (p < length (nl_bonds nl))%nat -> sq_value c qlm ql (nth p (nl_bonds nl) bond0) = Some (v p)) -> reach nl -> execution 0 (nl_nq nl) ev ->
  exists out, sq_all c nl qlm ql ev = Some out /\ length out = length (nl_bonds nl) /\ forall p, (p < length (nl_bonds nl))%nat -> nth p out None = v p.
Proof.
  intros V R E. destruct (C19_reachable_valid nl R) as [S B]. set (n := length (nl_bonds nl)) in *. apply execution_perm in E.
  assert (FOLD : forall evs out, length out = n -> exists out', fold_left (fun out (e : nat * nat) => match out with
      | Some out => sq_bonds (Datatypes.S (length (nl_bonds nl))) c nl qlm ql (snd e) (find_first_index nl (snd e)) out | None => None end) evs (Some out) = Some out' /\ length out' = n /\
      forall p, (p < n)%nat -> nth p out' None = if existsb (Nat.eqb (bq (nth p (nl_bonds nl) bond0))) (map snd evs) then v p else nth p out None).
  { induction evs as [|e evs IH]; intros out L; [exists out; simpl; auto|]. cbn [fold_left map existsb]. destruct (C19_find_first_index nl (snd e) R) as (F1 & F2 & F3).
    destruct (sq_bonds_spec c nl qlm ql (snd e) v V S (Datatypes.S (length (nl_bonds nl))) (find_first_index nl (snd e)) out L) as (o1 & R1 & L1 & N1); [fold n; lia|exact F3|].
    rewrite R1. destruct (IH o1 L1) as (o2 & R2 & L2 & N2). exists o2. split; [exact R2|]. split; [exact L2|]. intros p Hp. rewrite N2 by exact Hp. destruct (existsb _ (map snd evs)); [rewrite orb_true_r; reflexivity|]. rewrite orb_false_r. rewrite N1 by exact Hp.
    destruct (Nat.eqb_spec (bq (nth p (nl_bonds nl) bond0)) (snd e)) as [Q|Q]; [|rewrite andb_false_r; reflexivity]. destruct (Nat.leb_spec (find_first_index nl (snd e)) p) as [K|K]; [reflexivity|]. exfalso. specialize (F2 p K). lia. }
  destruct (FOLD ev (repeat (Some 0) n) (repeat_length _ _)) as (out & R1 & L1 & N1). exists out. split; [exact R1|]. split; [exact L1|]. intros p Hp. rewrite N1 by exact Hp.
  replace (existsb _ _) with true; [reflexivity|]. symmetry. apply existsb_exists. exists (bq (nth p (nl_bonds nl) bond0)). split; [|apply Nat.eqb_refl].
  apply (Permutation_in _ (Permutation_sym E)). unfold range. apply in_seq. destruct (B (nth p (nl_bonds nl) bond0)) as [B1 _]; [apply nth_In; exact Hp|lia].
Qed.
Lemma select_map {A} (g : A -> bool) l : map fst (filter snd (combine l (map g l))) = filter g l.
Proof. induction l as [|x l IH]; simpl; [reflexivity|]. destruct (g x); simpl; rewrite IH; reflexivity. Qed.
Lemma filter_comm {A} (f g : A -> bool) l : filter f (filter g l) = filter g (filter f l).
Proof. induction l as [|x l IH]; simpl; [reflexivity|]. destruct (g x) eqn:G, (f x) eqn:F; simpl; rewrite ?G, ?F, IH; reflexivity. Qed.
Lemma filter_and {A} (f g : A -> bool) l : filter f (filter g l) = filter (fun x => g x && f x) l.
Proof. induction l as [|x l IH]; simpl; [reflexivity|]. destruct (g x) eqn:G; simpl; rewrite IH; reflexivity. Qed.

(** * Whole calls *)
Definition stin (f : sq_in) : st_in := sq_st_in (qi_box f) (qi_pts f) (qi_nl f) (qi_ev1 f) (qi_ev3 f).
Lemma stin_bonds f i : reach (qi_nl f) -> si_bonds (stin f) i = bonds_of f i.
Proof. intros R. unfold stin, sq_st_in. cbn [si_bonds]. rewrite C24_iterator by exact R. reflexivity. Qed.
Lemma stin_ok l f : sq_ok l f -> sizes_match f -> st_ok l (stin f).
Proof.
  intros (R & D & E1 & E3 & _) [M1 M2]. destruct (C19_reachable_valid _ R) as [_ B]. split; [|split].
  - intros i nb Hi Hnb. rewrite stin_bonds in Hnb by exact R. apply filter_In in Hnb as [Hnb _]. change (bp nb < length (qi_pts f))%nat. rewrite <- M2. apply B. exact Hnb.
  - intros i nb Hi Hnb. rewrite stin_bonds in Hnb by exact R. apply filter_In in Hnb as [Hnb E]. apply Nat.eqb_eq in E. rewrite <- E. exact (D nb Hnb).
  - cbn. auto.
Qed.
Lemma stin_q l f i k : reach (qi_nl f) -> q_point l false (stin f) i k = q_pt l f i k.
Proof. intros R. unfold q_point, q_pt. rewrite stin_bonds by exact R. reflexivity. Qed.
Lemma wtot_false bs : wtot false bs = INR (length bs).
Proof. unfold wtot. induction bs as [|b bs IH]; [reflexivity|]. cbn [fold_right length]. rewrite IH, S_INR. simpl. ring. Qed.
Lemma stin_mean f i : reach (qi_nl f) -> has_mean false (stin f) i <-> bonds_of f i <> [].
Proof.
  intros R. unfold has_mean. rewrite stin_bonds, wtot_false by exact R. destruct (bonds_of f i) as [|b bs]; simpl length.
  - split; intros H; exfalso; apply H; reflexivity.
  - split; [discriminate|]. intros _. apply not_0_INR. lia.
Qed.
Lemma rowval_ext l q q' : (forall k, q k = q' k) -> rowval l q = rowval l q'.
Proof. intros H. unfold rowval. apply map_ext. intros k. rewrite H. reflexivity. Qed.
Lemma invariant_ext l q q' : (forall k, q k = q' k) -> invariant l q = invariant l q'.
Proof. intros H. unfold invariant. f_equal. f_equal. apply nsum_ext. intros k. rewrite H. reflexivity. Qed.
Lemma norm2_pos l f i : 0 <= norm2 l f i. Proof. apply norm2_nonneg. Qed.
Lemma invariant_norm2 l f i : invariant l (q_pt l f i) = sqrt (4 * PI / INR (2 * l + 1)) * sqrt (norm2 l f i).
Proof.
  unfold invariant, norm2. apply sqrt_mult; [|apply norm2_nonneg]. apply Rlt_le, Rdiv_lt_0_compat; [assert (P := PI_RGT_0); lra|]. apply lt_0_INR. lia.
Qed.
Definition results (c : sqconf) (f : sq_in) (o : sqout) : Prop :=
  so_qij o = map (qij c f) (nl_bonds (qi_nl f)) /\ so_conn o = map (connections c f) (seq 0 (length (qi_pts f))) /\ map (fun b => (bp b, bq b)) (nl_bonds (so_solid o)) = links c f /\ sq_nlist o = qi_nl f /\
  (forall i, (i < length (qi_pts f))%nat -> nth i (sl_qlm (so_st o)) [] = if match bonds_of f i with [] => true | _ => false end then norow (sq_l c) else rowval (sq_l c) (q_pt (sq_l c) f i)).
Lemma value_spec c f s' b : sq_ok (sq_l c) f -> sizes_match f -> In b (nl_bonds (qi_nl f)) -> SteinProofs4.result (fun _ => None) sq_st (sq_l c) (stin f) s' ->
  sq_value c (sl_qlm s') (st_get_ql sq_st s') b = Some (qij c f b).
Proof.
  intros OK M Hb ((L1 & L2 & CELL) & _). destruct OK as (R & _). destruct (C19_reachable_valid _ R) as [_ B]. destruct (B b Hb) as [B1 B2]. rewrite (proj1 M) in B1. rewrite (proj2 M) in B2.
  change (length (si_pts (stin f))) with (length (qi_pts f)) in *. unfold st_get_ql, sq_st in *. cbn [sc_average sc_weighted] in *.
  assert (NE : bonds_of f (bq b) <> []) by (intros Z; assert (I : In b (bonds_of f (bq b))) by (apply filter_In; split; [exact Hb|apply Nat.eqb_refl]); rewrite Z in I; exact I).
  destruct (CELL _ B1) as [A1 _]. destruct (A1 (proj2 (stin_mean f _ R) NE)) as [R1 Q1]. unfold sq_value.
  rewrite (nth_error_g _ _ []) by lia. rewrite (nth_error_g _ (bp b) []) by lia. rewrite (nth_error_g _ _ None) by lia. rewrite (nth_error_g _ (bp b) None) by lia. rewrite R1, Q1. f_equal.
  destruct (CELL _ B2) as [A2 N2]. unfold qij. destruct (bonds_of f (bp b)) as [|b2 bs2] eqn:E2.
  - destruct N2 as [R2 Q2]; [rewrite (stin_mean f _ R), E2; intros X; apply X; reflexivity|]. rewrite R2, row_dot_none. reflexivity.
  - destruct A2 as [R2 Q2]; [apply (stin_mean f _ R); rewrite E2; discriminate|]. rewrite R2, Q2. set (l := sq_l c) in *.
    rewrite (rowval_ext l _ (q_pt l f (bq b))), (rowval_ext l (q_point _ _ _ (bp b)) (q_pt l f (bp b))) by (intros k; apply stin_q; exact R).
    rewrite (invariant_ext l _ (q_pt l f (bq b))), (invariant_ext l (q_point _ _ _ (bp b)) (q_pt l f (bp b))) by (intros k; apply stin_q; exact R).
    destruct (row_dot_val l (q_pt l f (bq b)) (q_pt l f (bp b))) as (z & -> & Z). destruct (sq_norm c); [|unfold dotq; rewrite Z; reflexivity].
    rewrite !invariant_norm2. assert (N1 := norm2_pos l f (bq b)). assert (N3 := norm2_pos l f (bp b)). set (a := 4 * PI / INR (2 * l + 1)).
    assert (A : 0 < a) by (unfold a; apply Rdiv_lt_0_compat; [assert (P := PI_RGT_0); lra|]; apply lt_0_INR; lia). assert (SA : sqrt a * sqrt a = a) by (apply sqrt_sqrt; lra).
    assert (SA0 : 0 < sqrt a) by (apply sqrt_lt_R0; exact A). set (x := norm2 l f (bq b)) in *. set (y := norm2 l f (bp b)) in *.
    destruct (Req_EM_T (x * y) 0) as [E|E].
    + replace (sqrt a * sqrt x * (sqrt a * sqrt y)) with (a * (sqrt x * sqrt y)) by (transitivity (sqrt a * sqrt a * (sqrt x * sqrt y)); [rewrite SA; reflexivity|ring]). rewrite <- sqrt_mult, E, sqrt_0, Rmult_0_r by assumption. destruct (Reqb_spec 0 0); [reflexivity|lra].
    + assert (X : 0 < x) by (destruct N1 as [|Q]; [assumption|exfalso; apply E; rewrite <- Q; ring]). assert (Y : 0 < y) by (destruct N3 as [|Q]; [assumption|exfalso; apply E; rewrite <- Q; ring]).
      assert (SX := sqrt_lt_R0 x X). assert (SY := sqrt_lt_R0 y Y). destruct (Reqb_spec (sqrt a * sqrt x * (sqrt a * sqrt y)) 0) as [W|W]; [exfalso; assert (0 < sqrt a * sqrt x * (sqrt a * sqrt y)) by (repeat apply Rmult_lt_0_compat; assumption); lra|].
      f_equal. unfold dotq. rewrite <- Z. replace (sqrt a * sqrt x * (sqrt a * sqrt y)) with (a * (sqrt x * sqrt y)) by (transitivity (sqrt a * sqrt a * (sqrt x * sqrt y)); [rewrite SA; reflexivity|ring]). field. lra.
Qed.
Lemma above_solid c f b : above (sq_q c) (qij c f b) = solid c f b.
Proof. unfold above, solid. destruct (qij c f b) as [x|]; [|reflexivity]. destruct (Rltb_spec (sq_q c) x), (Rlt_dec (sq_q c) x); reflexivity || contradiction. Qed.
Lemma call_main fsph c s f : fsph_ok fsph (sq_l c) -> all_shaped (2 * sq_l c + 1) (sl_locals s) -> sq_ok (sq_l c) f ->
  (~ sizes_match f /\ sq_call fsph c s f = SQRaised) \/ (sizes_match f /\ exists o, sq_call fsph c s f = SQDone o /\ results c f o /\ all_shaped (2 * sq_l c + 1) (sl_locals (so_st o))).
Proof.
  intros F SH OK. assert (OK' := OK). destruct OK' as (R & D & E1 & E3 & E5). unfold sq_call, sq_compute, make_default_nlist, nl_validate.
  destruct (Nat.eqb_spec (length (qi_pts f)) (nl_nq (qi_nl f))) as [M1|M1]; [destruct (Nat.eqb_spec (length (qi_pts f)) (nl_np (qi_nl f))) as [M2|M2]|]; cbn [andb].
  2,3: left; split; [intros [X Y]; congruence|reflexivity].
  right. assert (M : sizes_match f) by (split; auto). split; [exact M|]. fold (stin f).
  destruct (call_spec fsph (fun _ => None) sq_st (sq_l c) s (stin f) F SH (stin_ok _ f OK M)) as [(W & _)|[(W & _)|(s' & -> & SH' & RES)]]; [discriminate|discriminate|].
  destruct (sq_all_spec c (qi_nl f) (sl_qlm s') (st_get_ql sq_st s') (qi_ev5 f) (fun p => qij c f (nth p (nl_bonds (qi_nl f)) bond0))) as (out & -> & LO & NO).
  { intros p Hp. apply value_spec; auto. apply nth_In. exact Hp. } { exact R. } { rewrite <- M1. exact E5. }
  assert (EO : out = map (qij c f) (nl_bonds (qi_nl f))).
  { apply (nth_ext _ _ None None); [rewrite map_length; exact LO|]. intros p Hp. rewrite LO in Hp. rewrite NO by exact Hp. rewrite (nth_map_lt _ _ _ bond0) by exact Hp. reflexivity. }
  subst out. rewrite map_map. rewrite (map_ext _ (solid c f)) by (intros b; apply above_solid).
  destruct (C20_filter (qi_nl f) (map (solid c f) (nl_bonds (qi_nl f))) (map_length _ _)) as (sl & rm & EF & BS & NQ & NP & _). rewrite EF. rewrite select_map in BS.
  assert (RS : reach sl) by (apply (reach_filter (qi_nl f) _ sl rm R EF)).
  destruct (C19_counts_segments sl RS) as (counts & segs & nl' & EC & _ & _ & _ & _ & LC & _ & CN & _). unfold sq_connections. rewrite EC.
  rewrite (omap_some _ (connections c f)).
  2:{ intros i Hi. apply in_seq in Hi. rewrite (nth_error_g _ _ 0%nat) by (rewrite LC, NQ; lia). destruct (CN i ltac:(rewrite NQ; lia)) as [C1 _]. rewrite C1, BS. unfold connections, bonds_of. rewrite filter_comm. reflexivity. }
  unfold sq_count_mask. rewrite (omap_some _ (fun b => ((sq_s c <=? connections c f (bq b)) && (sq_s c <=? connections c f (bp b)))%nat%bool)).
  2:{ intros b Hb. rewrite BS in Hb. apply filter_In in Hb as [Hb _]. destruct (C19_reachable_valid _ R) as [_ B]. destruct (B b Hb) as [B1 B2].
      assert (G : forall i, (i < nl_nq (qi_nl f))%nat -> nth_error (map (connections c f) (seq 0 (nl_nq (qi_nl f)))) i = Some (connections c f i)).
      { intros i Hi. rewrite (nth_error_g _ _ 0%nat) by (rewrite map_length, seq_length; exact Hi). rewrite (nth_map_lt _ _ _ 0%nat) by (rewrite seq_length; exact Hi). rewrite seq_nth by exact Hi. reflexivity. }
      rewrite !G by lia. reflexivity. }
  destruct (C20_filter sl (map (fun b => ((sq_s c <=? connections c f (bq b)) && (sq_s c <=? connections c f (bp b)))%nat%bool) (nl_bonds sl)) (map_length _ _)) as (sl2 & rm2 & EF2 & BS2 & _). rewrite EF2. rewrite select_map in BS2.
  eexists. split; [reflexivity|]. split; [|exact SH']. unfold results. cbn [so_qij so_conn so_solid so_nlist so_st sq_nlist]. split; [reflexivity|]. split; [rewrite <- M1; reflexivity|]. split; [|split; [reflexivity|]].
  - rewrite BS2, BS, filter_and. unfold links. f_equal. apply filter_ext. intros b. rewrite andb_assoc. reflexivity.
  - intros i Hi. destruct RES as ((_ & _ & CELL) & _). destruct (CELL i Hi) as [A1 A2]. destruct (bonds_of f i) as [|b bs] eqn:EB.
    + apply A2. unfold sq_st; cbn [sc_weighted]. rewrite (stin_mean f i R), EB. intros X; apply X; reflexivity.
    + rewrite <- (rowval_ext (sq_l c) _ _ (fun k => stin_q (sq_l c) f i k R)). apply A1. apply (stin_mean f i R). rewrite EB. discriminate.
Qed.
Lemma sq_shaped fsph c s : fsph_ok fsph (sq_l c) -> sq_reach fsph c s -> all_shaped (2 * sq_l c + 1) (sl_locals s).
Proof.
  intros F. induction 1 as [|s f o H IH OK E|s f H IH OK E]; [constructor| |exact IH]. destruct (call_main fsph c s f F IH OK) as [(_ & E2)|(_ & o2 & E2 & _ & SH)]; [congruence|]. rewrite E in E2. injection E2 as <-. exact SH.
Qed.

(** * The values *)
Section values.
Variables (fsph : nat -> nat -> R -> R -> cplx) (c : sqconf).
Hypothesis F : fsph_ok fsph (sq_l c).
(** A call raises exactly when the neighbour list was made for other numbers of points, and otherwise completes. *)
Theorem C58_accept s f : sq_reach fsph c s -> sq_ok (sq_l c) f -> (sq_call fsph c s f = SQRaised <-> ~ sizes_match f) /\ (sizes_match f -> exists o, sq_call fsph c s f = SQDone o).
Proof.
  intros H OK. destruct (call_main fsph c s f F (sq_shaped fsph c s F H) OK) as [(N & E)|(M & o & E & _)]; rewrite E; split; try tauto.
  - split; [discriminate|tauto].
  - intros _. exists o. reflexivity.
Qed.
Lemma done_results s f o : sq_reach fsph c s -> sq_ok (sq_l c) f -> sq_call fsph c s f = SQDone o -> sizes_match f /\ results c f o.
Proof.
  intros H OK E. destruct (call_main fsph c s f F (sq_shaped fsph c s F H) OK) as [(_ & E2)|(M & o2 & E2 & RS & _)]; rewrite E in E2; [discriminate|]. injection E2 as <-. auto.
Qed.
(** After any calls: the bond parameters, one for each bond in order; the numbers of solid-like bonds; the bonds that are clustered. *)
Theorem C58_qij s f o : sq_reach fsph c s -> sq_ok (sq_l c) f -> sq_call fsph c s f = SQDone o -> so_qij o = map (qij c f) (nl_bonds (qi_nl f)).
Proof. intros H OK E. apply (done_results s f o H OK E). Qed.
Theorem C58_connections s f o : sq_reach fsph c s -> sq_ok (sq_l c) f -> sq_call fsph c s f = SQDone o -> so_conn o = map (connections c f) (seq 0 (length (qi_pts f))).
Proof. intros H OK E. apply (done_results s f o H OK E). Qed.
Theorem C58_links s f o : sq_reach fsph c s -> sq_ok (sq_l c) f -> sq_call fsph c s f = SQDone o -> map (fun b => (bp b, bq b)) (nl_bonds (so_solid o)) = links c f.
Proof. intros H OK E. apply (done_results s f o H OK E). Qed.
Theorem C58_harmonics s f o i : sq_reach fsph c s -> sq_ok (sq_l c) f -> sq_call fsph c s f = SQDone o -> (i < length (qi_pts f))%nat ->
  nth i (sl_qlm (so_st o)) [] = match bonds_of f i with [] => norow (sq_l c) | _ => rowval (sq_l c) (q_pt (sq_l c) f i) end.
Proof. intros H OK E Hi. destruct (done_results s f o H OK E) as (_ & _ & _ & _ & _ & G). rewrite (G i Hi). destruct (bonds_of f i); reflexivity. Qed.
(** A link joins two solid-like particles by a solid-like bond, and every such bond is one. *)
Lemma links_in f i j : In (i, j) (links c f) <-> exists b, In b (nl_bonds (qi_nl f)) /\ bp b = i /\ bq b = j /\ solid c f b = true /\ solid_like c f i /\ solid_like c f j.
Proof.
  unfold links. rewrite in_map_iff. split.
  - intros (b & E & H). injection E as <- <-. apply filter_In in H as [H K]. apply andb_prop in K as [K K3]. apply andb_prop in K as [K1 K2]. apply Nat.leb_le in K2. apply Nat.leb_le in K3. exists b. repeat split; assumption.
  - intros (b & H & <- & <- & S & L1 & L2). exists b. split; [reflexivity|]. apply filter_In. split; [exact H|]. rewrite S. cbn [andb]. apply andb_true_intro. split; apply Nat.leb_le; assumption.
Qed.
Lemma links_bound f i j : reach (qi_nl f) -> sizes_match f -> In (i, j) (links c f) -> (i < length (qi_pts f) /\ j < length (qi_pts f))%nat.
Proof.
  intros R [M1 M2] H. apply links_in in H as (b & Hb & <- & <- & _). destruct (C19_reachable_valid _ R) as [_ B]. destruct (B b Hb). lia.
Qed.
(** The clusters, whatever the threads do: the connected components of the links, largest first, ties by smallest index. *)
Theorem C58_clusters s f o threads r : sq_reach fsph c s -> sq_ok (sq_l c) f -> sq_call fsph c s f = SQDone o -> sq_cluster (qi_pts f) o threads r ->
  canonical (length (qi_pts f)) (links c f) (cr_num r) (cr_idx r).
Proof.
  intros H OK E [P CR]. destruct (done_results s f o H OK E) as (M & _ & _ & L & _). rewrite L in P. apply (C40_numbering _ _ _ _ _ (fun p q => links_bound f p q (proj1 OK) M) P CR).
Qed.
(** A particle that is not solid-like is alone in its cluster. *)
Lemma connected_refl_like f i j : connected (links c f) i j -> i = j \/ (solid_like c f i /\ solid_like c f j).
Proof.
  induction 1 as [x y E|x|x y _ IH|x y z _ IH1 _ IH2].
  - right. apply links_in in E as (b & _ & _ & _ & _ & L1 & L2); auto.
  - left. reflexivity.
  - destruct IH as [->|[A B]]; auto.
  - destruct IH1 as [->|[A B]]; [assumption|]. destruct IH2 as [<-|[C D]]; auto.
Qed.
Theorem C58_alone s f o threads r i j : sq_reach fsph c s -> sq_ok (sq_l c) f -> sq_call fsph c s f = SQDone o -> sq_cluster (qi_pts f) o threads r ->
  (i < length (qi_pts f))%nat -> (j < length (qi_pts f))%nat -> ~ solid_like c f i -> cr_idx r i = cr_idx r j -> i = j.
Proof.
  intros H OK E CR Hi Hj NS EQ. destruct (C58_clusters s f o threads r H OK E CR) as [C _]. apply C in EQ; try assumption. destruct (connected_refl_like f i j EQ) as [Q|[Q _]]; [exact Q|contradiction].
Qed.
(** [largest_cluster_size] is the size of the largest cluster; without particles the read is undefined. *)
Lemma cluster_size n idx num bonds a : canonical n bonds num idx -> (a < num)%nat -> (size n idx a <= size n idx 0)%nat.
Proof.
  intros (_ & LT & EX & ORD) Ha. destruct (Nat.eq_dec a 0) as [->|NE]; [lia|]. destruct (EX a Ha) as (i & Hi & Ei). destruct (EX 0%nat ltac:(lia)) as (j & Hj & Ej).
  destruct (smallest_exists n idx a i Hi Ei) as (k & K). destruct (smallest_exists n idx 0 j Hj Ej) as (k' & K'). destruct (ORD 0%nat a k' k ltac:(lia) K' K); lia.
Qed.
Theorem C58_largest s f o threads r : sq_reach fsph c s -> sq_ok (sq_l c) f -> sq_call fsph c s f = SQDone o -> sq_cluster (qi_pts f) o threads r ->
  (qi_pts f = [] -> sq_largest r = None) /\
  (qi_pts f <> [] -> exists n, sq_largest r = Some n /\ (exists a, (a < cr_num r)%nat /\ n = size (length (qi_pts f)) (cr_idx r) a) /\ forall a, (a < cr_num r)%nat -> (size (length (qi_pts f)) (cr_idx r) a <= n)%nat).
Proof.
  intros H OK E CR. assert (C := C58_clusters s f o threads r H OK E CR). destruct CR as [P CR]. destruct (done_results s f o H OK E) as (M & _ & _ & L & _). rewrite L in P.
  assert (K := C40_keys _ _ _ _ _ (fun p q => links_bound f p q (proj1 OK) M) P CR). assert (C' := C). destruct C as (_ & LT & EX & _). unfold sq_largest. destruct (Nat.eqb_spec (cr_num r) 0) as [Z|Z]; split.
  - reflexivity.
  - intros NE. exfalso. destruct (qi_pts f) as [|p ps]; [congruence|]. specialize (LT 0%nat ltac:(simpl; lia)). lia.
  - intros W. exfalso. destruct (EX 0%nat ltac:(lia)) as (i & Hi & _). rewrite W in Hi. simpl in Hi. lia.
  - intros _. rewrite (K 0%nat) by lia. rewrite map_length. eexists. split; [reflexivity|]. split; [exists 0%nat; split; [lia|reflexivity]|]. intros a Ha. apply (cluster_size _ _ _ _ a C' Ha).
Qed.
(** [cluster_sizes] lists the number of particles of every cluster, in the order of the cluster indices, which is descending. *)
Theorem C58_sizes s f o threads r : sq_reach fsph c s -> sq_ok (sq_l c) f -> sq_call fsph c s f = SQDone o -> sq_cluster (qi_pts f) o threads r ->
  length (sq_sizes r) = cr_num r /\ (forall a, (a < cr_num r)%nat -> nth a (sq_sizes r) 0%nat = size (length (qi_pts f)) (cr_idx r) a) /\ (forall a b, (a < b < cr_num r)%nat -> (nth b (sq_sizes r) 0 <= nth a (sq_sizes r) 0)%nat).
Proof.
  intros H OK E CR. assert (C := C58_clusters s f o threads r H OK E CR). destruct CR as [P CR]. destruct (done_results s f o H OK E) as (M & _ & _ & L & _). rewrite L in P.
  assert (K := C40_keys _ _ _ _ _ (fun p q => links_bound f p q (proj1 OK) M) P CR).
  assert (V : forall a, (a < cr_num r)%nat -> nth a (sq_sizes r) 0%nat = size (length (qi_pts f)) (cr_idx r) a).
  { intros a Ha. unfold sq_sizes. rewrite (nth_indep _ 0%nat (length (cr_keys r 0))) by (rewrite map_length, seq_length; exact Ha). rewrite (map_nth (fun k => length (cr_keys r k))), seq_nth by exact Ha. cbn [Nat.add]. rewrite (K a Ha), map_length. reflexivity. }
  split; [unfold sq_sizes; rewrite map_length, seq_length; reflexivity|]. split; [exact V|]. intros a b Hab. rewrite !V by lia. destruct C as (_ & LT & EX & ORD). destruct (EX a ltac:(lia)) as (i & Hi & Ei). destruct (EX b ltac:(lia)) as (j & Hj & Ej).
  destruct (smallest_exists _ (cr_idx r) a i Hi Ei) as (k & Hk). destruct (smallest_exists _ (cr_idx r) b j Hj Ej) as (k' & Hk'). destruct (ORD a b k k' ltac:(lia) Hk Hk'); lia.
Qed.
End values.

(** * The bond parameter *)
Lemma dotq_self l f i : dotq l f i i = norm2 l f i.
Proof. unfold dotq, norm2. apply nsum_ext. intros k. unfold cmul, cconj, modulus2; simpl. ring. Qed.
Lemma dotq_sym l f i j : dotq l f i j = dotq l f j i.
Proof. unfold dotq. apply nsum_ext. intros k. unfold cmul, cconj; simpl. ring. Qed.
Lemma cauchy_rows l f i j : dotq l f i j * dotq l f i j <= norm2 l f i * norm2 l f j.
Proof.
  assert (Q : forall t, 0 <= norm2 l f i + 2 * t * dotq l f i j + t * t * norm2 l f j).
  { intros t. assert (G := norm2_nonneg l (fun k => cadd (q_pt l f i k) (cscale t (q_pt l f j k)))). cbv beta in G. replace (nsum (2 * l + 1) (fun k => modulus2 (cadd (q_pt l f i k) (cscale t (q_pt l f j k))))) with (norm2 l f i + 2 * t * dotq l f i j + t * t * norm2 l f j) in G; [exact G|].
    unfold norm2, dotq. generalize (2 * l + 1)%nat. induction n as [|n IH]; cbn [nsum]; [ring|]. rewrite <- IH. unfold modulus2, cadd, cscale, cmul, cconj; cbn [fst snd]. ring. }
  assert (N := norm2_pos l f i). assert (N' := norm2_pos l f j). set (x := norm2 l f i) in *. set (y := norm2 l f j) in *. set (d := dotq l f i j) in *. destruct (Req_dec y 0) as [Y|Y].
  - rewrite Y in *. destruct (Req_dec d 0) as [D|D]; [rewrite D; lra|]. assert (W := Q (- (x + 1) / (2 * d))). replace (x + 2 * (- (x + 1) / (2 * d)) * d + - (x + 1) / (2 * d) * (- (x + 1) / (2 * d)) * 0) with (-1) in W by (field; exact D). lra.
  - assert (W := Q (- d / y)). replace (x + 2 * (- d / y) * d + - d / y * (- d / y) * y) with (x - d * d / y) in W by (field; exact Y). assert (Z : d * d / y <= x) by lra. apply (Rmult_le_compat_r y) in Z; [|exact N']. replace (d * d / y * y) with (d * d) in Z by (field; exact Y). exact Z.
Qed.
(** Normalised values lie in [-1, 1]; raw ones are bounded by the product of the two norms. *)
Theorem C58_bound c f b x : qij c f b = Some x -> if sq_norm c then -1 <= x <= 1 else x * x <= norm2 (sq_l c) f (bq b) * norm2 (sq_l c) f (bp b).
Proof.
  unfold qij. destruct (bonds_of f (bp b)); [discriminate|]. assert (C := cauchy_rows (sq_l c) f (bq b) (bp b)). destruct (sq_norm c); [|intros E; injection E as <-; exact C].
  destruct (Req_EM_T _ 0) as [Z|Z]; [discriminate|]. intros E. injection E as <-. assert (N := norm2_pos (sq_l c) f (bq b)). assert (N' := norm2_pos (sq_l c) f (bp b)). set (p := norm2 (sq_l c) f (bq b)) in *. set (q := norm2 (sq_l c) f (bp b)) in *. set (d := dotq _ _ _ _) in *.
  rewrite <- sqrt_mult by assumption. assert (P : 0 < p * q) by nra. assert (S := sqrt_lt_R0 _ P). assert (SS : sqrt (p * q) * sqrt (p * q) = p * q) by (apply sqrt_sqrt; lra). set (s := sqrt (p * q)) in *.
  assert (D : - s <= d <= s) by (split; nra). split.
  - apply (Rmult_le_reg_r s); [exact S|]. unfold Rdiv. rewrite Rmult_assoc, Rinv_l by lra. lra.
  - apply (Rmult_le_reg_r s); [exact S|]. unfold Rdiv. rewrite Rmult_assoc, Rinv_l by lra. lra.
Qed.
(** A bond and its reverse have the same value, so if bonds come in both directions then connections count neighbours both ways. *)
Theorem C58_symmetric c f a b : In a (nl_bonds (qi_nl f)) -> In b (nl_bonds (qi_nl f)) -> bq a = bp b -> bp a = bq b -> qij c f a = qij c f b.
Proof.
  intros Ha Hb E1 E2. assert (NE : forall x, In x (nl_bonds (qi_nl f)) -> exists y ys, bonds_of f (bq x) = y :: ys).
  { intros x Hx. destruct (bonds_of f (bq x)) as [|y ys] eqn:B; [|eauto]. assert (I : In x (bonds_of f (bq x))) by (apply filter_In; split; [exact Hx|apply Nat.eqb_refl]). rewrite B in I. destruct I. }
  destruct (NE a Ha) as (y & ys & B1). destruct (NE b Hb) as (z & zs & B2). unfold qij. rewrite E2, <- E1, B2, B1. rewrite (Rmult_comm (norm2 (sq_l c) f (bq a))), (dotq_sym _ f (bq a)), (Rmult_comm (sqrt (norm2 (sq_l c) f (bq a)))). reflexivity.
Qed.
(** It depends only on the angles between bonds. *)
Definition bterms (f : sq_in) (i : nat) : list (R * bond) := map (fun b => (/ INR (length (bonds_of f i)), b)) (bonds_of f i).
Lemma pt_comb l f i k : q_pt l f i k = comb l (bvec f) (bterms f i) k.
Proof.
  unfold q_pt. rewrite qmean_comb, wtot_false. unfold comb, bterms. assert (G : forall bs, (forall b, In b bs -> bq b = i) -> csuml (fun t : R * bond => cscale (fst t) (harm l k (bdir (hvec (qi_box f) (qi_pts f) i (snd t))))) (map (fun nb => (/ INR (length (bonds_of f i)) * hweight false nb, nb)) bs) = csuml (fun t => cscale (fst t) (harm l k (bdir (bvec f (snd t))))) (map (fun b => (/ INR (length (bonds_of f i)), b)) bs)).
  { induction bs as [|b bs IH]; intros H; [reflexivity|]. cbn [map csuml fst snd]. rewrite IH by (intros; apply H; right; assumption). f_equal. unfold bvec. rewrite (H b (or_introl eq_refl)). f_equal. simpl. ring. }
  apply G. intros b Hb. apply filter_In in Hb as [_ Hb]. apply Nat.eqb_eq. exact Hb.
Qed.
Lemma legs_const {A} l (vec : A -> vec3) s t (T T' : list A) : legs l vec (map (fun b => (s, b)) T) (map (fun b => (t, b)) T') = s * t * rsuml (fun a => rsuml (fun b => legendre l (dot (bdir (vec a)) (bdir (vec b)))) T') T.
Proof.
  unfold legs. induction T as [|a T IH]; cbn [map rsuml fst snd]; [ring|]. rewrite IH, Rmult_plus_distr_l. f_equal. clear IH. induction T' as [|b T' IH]; cbn [map rsuml fst snd]; [ring|]. rewrite IH. ring.
Qed.
Theorem C58_angles l f i j : dotq l f i j = INR (2 * l + 1) / (4 * PI) * (/ INR (length (bonds_of f i)) * / INR (length (bonds_of f j)) * pair_sum l f i j).
Proof.
  assert (H := comb_product l (bvec f) (bterms f i) (bterms f j)). unfold bterms in H at 3 4. rewrite legs_const in H. fold (pair_sum l f i j) in H. unfold dotq. rewrite (nsum_ext _ _ (fun k => fst (cmul (comb l (bvec f) (bterms f i) k) (cconj (comb l (bvec f) (bterms f j) k))))) by (intros k; rewrite !pt_comb; reflexivity).
  rewrite <- fst_csum, H. reflexivity.
Qed.
Theorem C58_rotation c f f' : congruent_systems f f' -> (forall b, qij c f b = qij c f' b) /\ (forall i, connections c f i = connections c f' i) /\ links c f = links c f'.
Proof.
  intros (EB & D & NZ). assert (BO : forall i, bonds_of f i = bonds_of f' i) by (intros i; unfold bonds_of; rewrite EB; reflexivity).
  assert (PS : forall i j, dotq (sq_l c) f i j = dotq (sq_l c) f' i j).
  { intros i j. rewrite !C58_angles, <- !BO. f_equal. f_equal. unfold pair_sum. rewrite <- !BO. apply rsuml_ext. intros a Ha. apply rsuml_ext. intros b Hb. apply filter_In in Ha as [Ha _]. apply filter_In in Hb as [Hb _]. f_equal. apply bdir_dot; auto. }
  assert (Q : forall b, qij c f b = qij c f' b) by (intros b; unfold qij; rewrite <- !dotq_self, <- BO, !PS; reflexivity).
  assert (SO : forall b, solid c f b = solid c f' b) by (intros b; unfold solid; rewrite Q; reflexivity).
  assert (CO : forall i, connections c f i = connections c f' i) by (intros i; unfold connections; rewrite <- BO; f_equal; apply filter_ext; exact SO).
  split; [exact Q|]. split; [exact CO|]. unfold links. rewrite <- EB. f_equal. apply filter_ext. intros a. rewrite SO, !CO. reflexivity.
Qed.

(** * Concrete cases: two particles, each the neighbour of the other *)
Definition sp_bond0 : bond := bond_of_vector 0 1 1 (V3 1 0 0).
Definition sp_bond1 : bond := bond_of_vector 1 0 1 (V3 (-1) 0 0).
Definition sp_nl : nlist := NL 2 2 [sp_bond0; sp_bond1] false [0; 0]%nat [0; 0]%nat.
Definition sp_pts : list vec3 := [v0; V3 1 0 0].
Definition sp_in : sq_in := SQI ex_cube sp_pts sp_nl (ev_all 2) (ev_all 5) (ev_all 2).
Lemma sp_reach : reach sp_nl.
Proof. apply (reach_arrays 2 2 [0; 1]%nat [1; 0]%nat [V3 1 0 0; V3 (-1) 0 0] None). reflexivity. Qed.
Lemma sp_h0 : hvec ex_cube sp_pts 0 sp_bond0 = V3 1 0 0.
Proof. unfold hvec; simpl. rewrite ex_small; unfold vsub; simpl; try lra. apply vec_eq; simpl; ring. Qed.
Lemma sp_h1 : hvec ex_cube sp_pts 1 sp_bond1 = V3 (-1) 0 0.
Proof. unfold hvec; simpl. rewrite ex_small; unfold vsub; simpl; try lra. apply vec_eq; simpl; ring. Qed.
Lemma sp_ok : sq_ok 2 sp_in.
Proof.
  split; [exact sp_reach|]. split; [|repeat split; apply ev_all_ok; simpl; lia]. intros b [<-|[<-|[]]]; [change (bd sp_bond0 = len (hvec ex_cube sp_pts 0 sp_bond0)); rewrite sp_h0|change (bd sp_bond1 = len (hvec ex_cube sp_pts 1 sp_bond1)); rewrite sp_h1]; reflexivity.
Qed.
Lemma sp_match : sizes_match sp_in. Proof. split; reflexivity. Qed.
Lemma sp_dot i j : (i < 2)%nat -> (j < 2)%nat -> dotq 2 sp_in i j = INR 5 / (4 * PI).
Proof.
  intros Hi Hj. rewrite C58_angles. assert (L1 : legendre 2 (-1) = 1) by (replace (-1) with (- (1)) by ring; rewrite legendre_neg, legendre_one; ring). assert (L2 := legendre_one 2).
  assert (E : pair_sum 2 sp_in i j = 1 /\ INR (length (bonds_of sp_in i)) = 1 /\ INR (length (bonds_of sp_in j)) = 1).
  { assert (B0 : bvec sp_in sp_bond0 = V3 1 0 0) by exact sp_h0. assert (B1 : bvec sp_in sp_bond1 = V3 (-1) 0 0) by exact sp_h1.
    assert (U0 : bdir (V3 1 0 0) = V3 1 0 0) by (apply bdir_1; unfold dot; simpl; ring). assert (U1 : bdir (V3 (-1) 0 0) = V3 (-1) 0 0) by (apply bdir_1; unfold dot; simpl; ring).
    assert (D0 : dot (V3 1 0 0) (V3 1 0 0) = 1) by (unfold dot; simpl; ring). assert (D1 : dot (V3 (-1) 0 0) (V3 (-1) 0 0) = 1) by (unfold dot; simpl; ring). assert (D2 : dot (V3 1 0 0) (V3 (-1) 0 0) = -1) by (unfold dot; simpl; ring). assert (D3 : dot (V3 (-1) 0 0) (V3 1 0 0) = -1) by (unfold dot; simpl; ring).
    assert (F0 : bonds_of sp_in 0 = [sp_bond0]) by reflexivity. assert (F1 : bonds_of sp_in 1 = [sp_bond1]) by reflexivity.
    destruct i as [|[|i]]; try lia; destruct j as [|[|j]]; try lia; unfold pair_sum; rewrite ?F0, ?F1; cbn [rsuml length INR]; rewrite ?B0, ?B1, ?U0, ?U1, ?D0, ?D1, ?D2, ?D3, ?L1, ?L2; lra. }
  destruct E as (-> & -> & ->). change (2 * 2 + 1)%nat with 5%nat. field. assert (P := PI_RGT_0). lra.
Qed.
Lemma sp_qij c b : sq_l c = 2%nat -> sq_norm c = true -> In b (nl_bonds sp_nl) -> qij c sp_in b = Some 1.
Proof.
  intros L N H. assert (I : (bq b < 2)%nat /\ (bp b < 2)%nat) by (destruct H as [<-|[<-|[]]]; simpl; lia). unfold qij. rewrite N, L, <- !dotq_self. rewrite !sp_dot by apply I. assert (Q : 0 < INR 5 / (4 * PI)) by (apply Rdiv_lt_0_compat; [apply lt_0_INR; lia|assert (P := PI_RGT_0); lra]). set (x := INR 5 / (4 * PI)) in *.
  replace (match bonds_of sp_in (bp b) with [] => _ | _ => _ end) with (if Req_EM_T (x * x) 0 then None else Some (x / (sqrt x * sqrt x))) by (destruct H as [<-|[<-|[]]]; reflexivity).
  destruct (Req_EM_T (x * x) 0) as [Z|Z]; [exfalso; nra|]. rewrite sqrt_sqrt by lra. f_equal. field. lra.
Qed.
Lemma sp_solid c b : sq_l c = 2%nat -> sq_norm c = true -> In b (nl_bonds sp_nl) -> solid c sp_in b = if Rlt_dec (sq_q c) 1 then true else false.
Proof. intros L N H. unfold solid. rewrite sp_qij by assumption. reflexivity. Qed.
Lemma sp_connections c i : sq_l c = 2%nat -> sq_norm c = true -> (i < 2)%nat -> connections c sp_in i = if Rlt_dec (sq_q c) 1 then 1%nat else 0%nat.
Proof.
  intros L N H. unfold connections. assert (E : exists b, bonds_of sp_in i = [b] /\ In b (nl_bonds sp_nl)) by (destruct i as [|[|i]]; [exists sp_bond0|exists sp_bond1|lia]; split; simpl; auto). destruct E as (b & -> & Hb). cbn [filter]. rewrite (sp_solid c b L N Hb). destruct (Rlt_dec _ _); reflexivity.
Qed.
Definition sp_conf (q : R) (s : nat) : sqconf := SQC 2 q s true.
(** The class description asks for more than `solid_threshold` solid-like bonds; the code asks for at least that many. *)
Theorem C58_more_than_refuted : exists f o c, sq_ok (sq_l c) f /\ sq_call fsph_ref c stl_new f = SQDone o /\ (forall i, connections c f i <= sq_s c)%nat /\ nl_bonds (so_solid o) <> [].
Proof.
  set (c := sp_conf (1 / 2) 1). destruct (C58_accept fsph_ref c (fsph_ref_ok 2) stl_new sp_in (sq_new _ _) sp_ok) as [_ (o & E)]; [exact sp_match|]. exists sp_in, o, c. split; [exact sp_ok|]. split; [exact E|]. split.
  - intros i. destruct (Nat.lt_ge_cases i 2) as [H|H]; [rewrite sp_connections by (reflexivity || exact H); destruct (Rlt_dec _ _); simpl; lia|]. unfold connections. replace (bonds_of sp_in i) with (@nil bond); [simpl; lia|]. unfold bonds_of; simpl. destruct i as [|[|i]]; try lia. reflexivity.
  - intros Z. assert (K := C58_links fsph_ref c (fsph_ref_ok 2) stl_new sp_in o (sq_new _ _) sp_ok E). rewrite Z in K. assert (I : In (1, 0)%nat (links c sp_in)); [|rewrite <- K in I; exact I].
    apply links_in. exists sp_bond0. unfold solid_like. rewrite !sp_connections by (reflexivity || lia). rewrite (sp_solid c sp_bond0) by (reflexivity || (left; reflexivity)). cbn [sq_q sq_s c sp_conf]. destruct (Rlt_dec (1 / 2) 1); [|lra]. repeat split; simpl; auto.
Qed.
(** `nlist` is documented as the list of solid-like bonds; it is the list the call was given. *)
Theorem C58_nlist_refuted : exists f o c b, sq_ok (sq_l c) f /\ sq_call fsph_ref c stl_new f = SQDone o /\ In b (nl_bonds (sq_nlist o)) /\ solid c f b = false.
Proof.
  set (c := sp_conf 2 1). destruct (C58_accept fsph_ref c (fsph_ref_ok 2) stl_new sp_in (sq_new _ _) sp_ok) as [_ (o & E)]; [exact sp_match|]. exists sp_in, o, c, sp_bond0. split; [exact sp_ok|]. split; [exact E|].
  destruct (done_results fsph_ref c (fsph_ref_ok 2) stl_new sp_in o (sq_new _ _) sp_ok E) as (_ & _ & _ & _ & -> & _). split; [left; reflexivity|]. rewrite sp_solid by (reflexivity || (left; reflexivity)). cbn [sq_q c sp_conf]. destruct (Rlt_dec 2 1); [lra|reflexivity].
Qed.
(** A schedule of the clustering for two particles with both bonds on one thread, and without bonds. *)
Lemma pair_run : exists r, cluster_run 2 [[(1, 0); (0, 1)]]%nat None r /\ cr_num r = length [[0; 1]]%nat /\ map (cr_keys r) (seq 0 (length [[0; 1]]%nat)) = [[0; 1]]%nat.
Proof.
  set (s1 := sched (repeat 0%nat 200) dset_init (map bonds_prog [[(1, 0); (0, 1)]]%nat)). set (p1 := label_pass 2 (seq 0 2) (labels_init 2)). set (s2 := sched (repeat 0%nat 100) (fst s1) [p1]).
  assert (E2 : exists st, snd s2 = [Ret st]) by (eexists; vm_compute; reflexivity). destruct E2 as [st E2].
  assert (ST : st = match snd s2 with [Ret st] => st | _ => labels_init 0 end) by (rewrite E2; auto).
  set (p2 := assign_pass None st (invert [0]%nat) (seq 0 2) (CR (lb_num st) (fun _ => 0%nat) (fun _ => []))). set (s3 := sched (repeat 0%nat 100) (fst s2) [p2]).
  assert (E3 : exists r, snd s3 = [Ret r]) by (unfold s3, p2; rewrite ST; eexists; vm_compute; reflexivity). destruct E3 as [r E3].
  assert (ER : r = match snd s3 with [Ret r] => r | _ => CR 0 (fun _ => 0%nat) (fun _ => []) end) by (rewrite E3; auto).
  exists r. split.
  - exists (fst s1), (fst s2), (fst s3), st, [0]%nat. split; [|split; [|split]].
    + unfold merge_run. pose proof (sched_star (repeat 0%nat 200) dset_init (map bonds_prog [[(1, 0); (0, 1)]]%nat)) as S. fold s1 in S. rewrite (surjective_pairing s1) in S.
      replace (map (fun _ => Ret tt) [[(1, 0); (0, 1)]]%nat) with (snd s1) by (vm_compute; reflexivity). exact S.
    + apply run1_sched. exact E2.
    + split; [rewrite ST; vm_compute; apply Permutation_refl|]. rewrite ST. intros a b H. cbn [length] in H. lia.
    + apply run1_sched. exact E3.
  - rewrite ER. unfold s3, p2. rewrite ST. split; vm_compute; reflexivity.
Qed.
Lemma apart_run : exists r, cluster_run 2 [@nil (nat * nat)] None r /\ cr_num r = length [[0]; [1]]%nat /\ map (cr_keys r) (seq 0 (length [[0]; [1]]%nat)) = [[0]; [1]]%nat.
Proof.
  set (s1 := sched (repeat 0%nat 200) dset_init (map bonds_prog [@nil (nat * nat)])). set (p1 := label_pass 2 (seq 0 2) (labels_init 2)). set (s2 := sched (repeat 0%nat 100) (fst s1) [p1]).
  assert (E2 : exists st, snd s2 = [Ret st]) by (eexists; vm_compute; reflexivity). destruct E2 as [st E2].
  assert (ST : st = match snd s2 with [Ret st] => st | _ => labels_init 0 end) by (rewrite E2; auto).
  set (p2 := assign_pass None st (invert [0; 1]%nat) (seq 0 2) (CR (lb_num st) (fun _ => 0%nat) (fun _ => []))). set (s3 := sched (repeat 0%nat 100) (fst s2) [p2]).
  assert (E3 : exists r, snd s3 = [Ret r]) by (unfold s3, p2; rewrite ST; eexists; vm_compute; reflexivity). destruct E3 as [r E3].
  assert (ER : r = match snd s3 with [Ret r] => r | _ => CR 0 (fun _ => 0%nat) (fun _ => []) end) by (rewrite E3; auto).
  exists r. split.
  - exists (fst s1), (fst s2), (fst s3), st, [0; 1]%nat. split; [|split; [|split]].
    + unfold merge_run. pose proof (sched_star (repeat 0%nat 200) dset_init (map bonds_prog [@nil (nat * nat)])) as S. fold s1 in S. rewrite (surjective_pairing s1) in S.
      replace (map (fun _ => Ret tt) [@nil (nat * nat)]) with (snd s1) by (vm_compute; reflexivity). exact S.
    + apply run1_sched. exact E2.
    + split; [rewrite ST; vm_compute; apply Permutation_refl|]. rewrite ST. intros a b H. cbn [length] in H. assert (a = 0 /\ b = 1)%nat as [-> ->] by lia. vm_compute. reflexivity.
    + apply run1_sched. exact E3.
  - rewrite ER. unfold s3, p2. rewrite ST. split; vm_compute; reflexivity.
Qed.
(** Without any solid-like particle `largest_cluster_size` is 1: every particle is its own cluster. *)
Theorem C58_largest_refuted : exists f o c threads r, sq_ok (sq_l c) f /\ sq_call fsph_ref c stl_new f = SQDone o /\ sq_cluster (qi_pts f) o threads r /\ (forall i, ~ solid_like c f i) /\ sq_largest r = Some 1%nat.
Proof.
  set (c := sp_conf 2 1). destruct (C58_accept fsph_ref c (fsph_ref_ok 2) stl_new sp_in (sq_new _ _) sp_ok) as [_ (o & E)]; [exact sp_match|]. assert (K := C58_links fsph_ref c (fsph_ref_ok 2) stl_new sp_in o (sq_new _ _) sp_ok E).
  assert (NS : forall i, ~ solid_like c sp_in i).
  { intros i. unfold solid_like. destruct (Nat.lt_ge_cases i 2) as [H|H]; [rewrite sp_connections by (reflexivity || exact H); cbn [sq_q sq_s c sp_conf]; destruct (Rlt_dec 2 1); [lra|lia]|]. unfold connections. replace (bonds_of sp_in i) with (@nil bond); [simpl; lia|]. unfold bonds_of; simpl. destruct i as [|[|i]]; try lia. reflexivity. }
  assert (NL : links c sp_in = []). { destruct (links c sp_in) as [|[i j] ls] eqn:EL; [reflexivity|]. exfalso. assert (I : In (i, j) (links c sp_in)) by (rewrite EL; left; reflexivity). apply links_in in I as (b & _ & _ & _ & _ & S & _). exact (NS i S). }
  destruct apart_run as (r & CR & N & KS). exists sp_in, o, c, [[]], r. split; [exact sp_ok|]. split; [exact E|]. split; [split; [rewrite K, NL; apply Permutation_refl|exact CR]|]. split; [exact NS|].
  unfold sq_largest. rewrite N. cbn [length] in *. injection KS as -> _. reflexivity.
Qed.
Example C58_ex : exists o threads r, sq_call fsph_ref (sp_conf (1 / 2) 1) stl_new sp_in = SQDone o /\ sq_cluster sp_pts o threads r /\ so_qij o = [Some 1; Some 1] /\ so_conn o = [1; 1]%nat /\ sq_largest r = Some 2%nat /\ congruent_systems sp_in sp_in.
Proof.
  set (c := sp_conf (1 / 2) 1). destruct (C58_accept fsph_ref c (fsph_ref_ok 2) stl_new sp_in (sq_new _ _) sp_ok) as [_ (o & E)]; [exact sp_match|]. assert (K := C58_links fsph_ref c (fsph_ref_ok 2) stl_new sp_in o (sq_new _ _) sp_ok E).
  assert (S1 : forall i, (i < 2)%nat -> connections c sp_in i = 1%nat) by (intros i H; rewrite sp_connections by (reflexivity || exact H); cbn [sq_q c sp_conf]; destruct (Rlt_dec (1 / 2) 1); [reflexivity|lra]).
  assert (S2 : forall b, In b (nl_bonds sp_nl) -> solid c sp_in b = true) by (intros b H; rewrite sp_solid by (reflexivity || exact H); cbn [sq_q c sp_conf]; destruct (Rlt_dec (1 / 2) 1); [reflexivity|lra]).
  destruct pair_run as (r & CR & N & KS). exists o, [[(1, 0); (0, 1)]]%nat, r. split; [exact E|]. split; [split; [|exact CR]|].
  - rewrite K. unfold links. rewrite (filter_all _ (nl_bonds (qi_nl sp_in))); [apply Permutation_refl|]. intros b Hb. rewrite (S2 b Hb). destruct Hb as [<-|[<-|[]]]; simpl bq; simpl bp; rewrite !S1 by lia; reflexivity.
  - split; [|split; [|split]].
    + rewrite (C58_qij fsph_ref c (fsph_ref_ok 2) stl_new sp_in o (sq_new _ _) sp_ok E). simpl. rewrite !sp_qij by (reflexivity || simpl; auto). reflexivity.
    + rewrite (C58_connections fsph_ref c (fsph_ref_ok 2) stl_new sp_in o (sq_new _ _) sp_ok E). simpl. rewrite !S1 by lia. reflexivity.
    + unfold sq_largest. rewrite N. cbn [length] in *. injection KS as ->. reflexivity.
    + split; [reflexivity|]. split; [reflexivity|]. intros a [<-|[<-|[]]] Z; [change (hvec ex_cube sp_pts 0 sp_bond0 = v0) in Z; rewrite sp_h0 in Z|change (hvec ex_cube sp_pts 1 sp_bond1 = v0) in Z; rewrite sp_h1 in Z]; injection Z; lra.
Qed.
Print Assumptions C58_accept.
Print Assumptions C58_qij.
Print Assumptions C58_connections.
Print Assumptions C58_links.
Print Assumptions C58_clusters.
Print Assumptions C58_alone.
Print Assumptions C58_largest.
Print Assumptions C58_sizes.
Print Assumptions C58_bound.
Print Assumptions C58_symmetric.
Print Assumptions C58_angles.
Print Assumptions C58_rotation.
