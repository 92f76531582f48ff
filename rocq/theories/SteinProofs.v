(** Proofs about the Steinhardt model. *)
From Verif Require Import RBase HistSpec ParProofs MatchEnvProofs LocalDescProps SphProofs SphSpec HexProps AccumProofs Vec.
From Coq Require Import Permutation Reals ZArith List Lra Lia Bool.
From Verif Require Import HarmProofs SteinSpec.
Import ListNotations.
Local Open Scope R_scope.
Add Ring cplx_ring_inst : cplx_ring.

(** * Angles *)
Lemma ylm_harm fsph l i theta phi : fsph_ok fsph l -> (i < 2 * l + 1)%nat -> st_ylm fsph l i theta phi = harm l (m_of l i) (sphere theta phi).
Proof.
  intros F Hi. unfold st_ylm. rewrite (F i theta phi Hi). destruct ((i <=? l) && Nat.odd i)%nat%bool; destruct (harm _ _ _); unfold cscale; simpl; f_equal; ring.
Qed.
Lemma clamp_in x : -1 <= x <= 1 -> clamp x (-1) 1 = x.
Proof. intros H. unfold clamp. rewrite Rmin_left, Rmax_right by lra. reflexivity. Qed.
Lemma len_zero v : len v = 0 -> v = v0.
Proof.
  unfold len. intros H. apply sqrt_eq_0 in H; [|unfold dot; nra]. unfold dot in H. assert (A := Rle_0_sqr (vx v)). assert (B := Rle_0_sqr (vy v)). assert (C := Rle_0_sqr (vz v)). unfold Rsqr in *.
  apply vec_eq; simpl; apply Rsqr_0_uniq; unfold Rsqr; lra.
Qed.
Lemma polar_bdir v : sphere (st_polar (vz v) (len v)) (atan2 (vy v) (vx v)) = bdir v.
Proof.
  unfold st_polar, bdir. destruct (Reqb_spec (len v) 0) as [E|E]; destruct (Req_EM_T (len v) 0) as [E'|E']; try contradiction.
  - apply len_zero in E. subst v. simpl. rewrite atan2_00. unfold sphere. rewrite sin_0, cos_0. apply vec_eq; simpl; ring.
  - assert (NV : v <> v0) by (intros ->; apply E; unfold len, dot, v0; simpl; replace (0 * 0 + 0 * 0 + 0 * 0) with 0 by ring; apply sqrt_0).
    rewrite clamp_in by (apply vz_ratio; exact NV). destruct (sph_direction v NV) as (_ & _ & D & _). destruct (azimuth_trig v) as [C S]. rewrite C, S in D.
    change (acos (vz v / len v)) with (polar v). change (norm v) with (len v) in D. unfold sphere. set (a := atan2 (vy v) (vx v)) in *. set (p := polar v) in *. set (n := len v) in *.
    apply (f_equal (vscale (/ n))) in D. rewrite D. apply vec_eq; unfold vscale; simpl; field; exact E.
Qed.
Lemma bdir_unit v : dot (bdir v) (bdir v) = 1.
Proof.
  unfold bdir. destruct (Req_EM_T (len v) 0) as [E|E]; [unfold dot; simpl; ring|]. assert (L : len v * len v = dot v v) by (unfold len; apply sqrt_sqrt; unfold dot; nra).
  transitivity (dot v v / (len v * len v)); [unfold dot, vscale; simpl; field; exact E|]. rewrite L. field. rewrite <- L. intros Z. apply Rmult_integral in Z as [Z|Z]; contradiction.
Qed.
Lemma unit_sphere u : dot u u = 1 -> exists theta phi, u = sphere theta phi.
Proof.
  intros U. assert (B : bdir u = u).
  { unfold bdir, len. rewrite U, sqrt_1. destruct (Req_EM_T 1 0); [lra|]. apply vec_eq; unfold vscale; simpl; field. }
  exists (st_polar (vz u) (len u)), (atan2 (vy u) (vx u)). rewrite polar_bdir, B. reflexivity.
Qed.

(** * Rows *)
Lemma rowval_len l q : length (rowval l q) = (2 * l + 1)%nat. Proof. unfold rowval. rewrite map_length, seq_length. reflexivity. Qed.
Lemma norow_len l : length (norow l) = (2 * l + 1)%nat. Proof. unfold norow. rewrite map_length, seq_length. reflexivity. Qed.
Lemma nth_rowval l q k d : (k < 2 * l + 1)%nat -> nth k (rowval l q) d = Some (q (m_of l k)).
Proof. intros H. unfold rowval. rewrite (nth_map_lt _ _ _ O) by (rewrite seq_length; exact H). rewrite seq_nth by exact H. reflexivity. Qed.
Lemma nth_norow l k d : (k < 2 * l + 1)%nat -> nth k (norow l) d = None.
Proof. intros H. unfold norow. rewrite (nth_map_lt _ _ _ O) by (rewrite seq_length; exact H). reflexivity. Qed.
Lemma map_seq_ext {A} (f g : nat -> A) n : (forall i, (i < n)%nat -> f i = g i) -> map f (seq 0 n) = map g (seq 0 n).
Proof. intros H. apply map_ext_in. intros i Hi. apply in_seq in Hi. apply H. lia. Qed.
Lemma st_fold fsph l weighted b pts ref i bs : fsph_ok fsph l -> nth_error pts i = Some ref -> (forall nb, In nb bs -> (bp nb < length pts)%nat) -> (forall nb, In nb bs -> bd nb = len (hvec b pts i nb)) ->
  forall f tw, fold_left (st_bond fsph l weighted b pts ref) bs (Some (map f (seq 0 (2 * l + 1)), tw)) =
  Some (map (fun k => cadd (f k) (wsum (yterms l (m_of l k) weighted (hvec b pts i) bs))) (seq 0 (2 * l + 1)), tw + wtot weighted bs).
Proof.
  intros F E. induction bs as [|nb bs IH]; intros H D f tw.
  - simpl. f_equal. f_equal; [apply map_ext; intros k; change (0, 0) with c0; ring|ring].
  - assert (P : nth_error pts (bp nb) = Some (nth (bp nb) pts v0)) by (apply nth_error_g, H; left; reflexivity). cbn [fold_left].
    assert (X : st_bond fsph l weighted b pts ref (Some (map f (seq 0 (2 * l + 1)), tw)) nb =
      Some (map (fun k => cadd (f k) (cscale (hweight weighted nb) (harm l (m_of l k) (bdir (hvec b pts i nb))))) (seq 0 (2 * l + 1)), tw + hweight weighted nb)).
    { unfold st_bond. rewrite P. cbv zeta. f_equal. f_equal. apply map_seq_ext. intros k Hk. rewrite (nth_map_lt _ _ _ O) by (rewrite seq_length; exact Hk). rewrite seq_nth by exact Hk.
      rewrite ylm_harm by assumption. rewrite (D nb (or_introl eq_refl)). unfold hvec. rewrite (nth_error_nth _ _ v0 E). rewrite polar_bdir. reflexivity. }
    rewrite X, IH by (intros; first [apply H; right; assumption | apply D; right; assumption]). f_equal. f_equal.
    + apply map_ext. intros k. cbn [yterms map wsum fold_right fst snd]. unfold yterms, wsum. ring.
    + cbn [wtot fold_right]. fold (wtot weighted bs). ring.
Qed.
Lemma repeat_seq_from {A} (x : A) n : forall j, map (fun _ : nat => x) (seq j n) = repeat x n.
Proof. induction n as [|n IH]; intros j; simpl; [reflexivity|]. rewrite IH. reflexivity. Qed.
Lemma repeat_seq {A} (x : A) n : repeat x n = map (fun _ : nat => x) (seq 0 n).
Proof. symmetry. apply repeat_seq_from. Qed.
Lemma c_div_some z t : t <> 0 -> c_div z t = Some (cscale (/ t) z).
Proof. intros H. unfold c_div. destruct (Reqb_spec t 0); [contradiction|]. destruct z. unfold cscale; cbn [fst snd]. replace (/ t * r) with (r / t) by (field; exact H). replace (/ t * r0) with (r0 / t) by (field; exact H). reflexivity. Qed.
Lemma c_div_none z : c_div z 0 = None.
Proof. unfold c_div. destruct (Reqb_spec 0 0); [reflexivity|lra]. Qed.
Lemma st_row_spec fsph l weighted b pts bs i : fsph_ok fsph l -> (i < length pts)%nat -> (forall nb, In nb bs -> (bp nb < length pts)%nat) -> (forall nb, In nb bs -> bd nb = len (hvec b pts i nb)) ->
  (wtot weighted bs <> 0 -> st_row fsph l weighted b pts bs i = Some (rowval l (qmean l weighted (hvec b pts i) bs))) /\
  (wtot weighted bs = 0 -> st_row fsph l weighted b pts bs i = Some (norow l)).
Proof.
  intros F Hi H D. assert (E : nth_error pts i = Some (nth i pts v0)) by (apply nth_error_g; exact Hi). unfold st_row. rewrite E.
  rewrite (repeat_seq c0).
  rewrite (st_fold fsph l weighted b pts _ i bs F E H D). rewrite Rplus_0_l. split; intros W; f_equal; rewrite map_map; apply map_ext; intros k.
  - rewrite c_div_some by exact W. unfold qmean. f_equal. f_equal. ring.
  - rewrite W. apply c_div_none.
Qed.

(** * Second-order invariants *)
Lemma nsum_add n m f : nsum (n + m) f = nsum n f + nsum m (fun k => f (n + k)%nat).
Proof. induction m as [|m IH]; [rewrite Nat.add_0_r; simpl; ring|]. rewrite Nat.add_succ_r. simpl. rewrite IH. ring. Qed.
Lemma nsum_ext_lt n f g : (forall k, (k < n)%nat -> f k = g k) -> nsum n f = nsum n g.
Proof. induction n as [|n IH]; simpl; intros H; auto. rewrite IH, H by auto. reflexivity. Qed.
Lemma nsum_first n f : nsum (S n) f = f O + nsum n (fun k => f (S k)).
Proof. induction n as [|n IH]; [simpl; ring|]. cbn [nsum] in *. rewrite IH. ring. Qed.
Lemma nsum_rev n f : nsum n (fun k => f (n - 1 - k)%nat) = nsum n f.
Proof.
  induction n as [|n IH]; [reflexivity|]. rewrite nsum_first. cbn [nsum]. replace (S n - 1 - 0)%nat with n by lia. rewrite <- IH.
  rewrite (nsum_ext_lt n (fun k => f (S n - 1 - S k)%nat) (fun k => f (n - 1 - k)%nat)) by (intros k Hk; f_equal; lia). ring.
Qed.
Lemma nsum_m_of l g : nsum (2 * l + 1) (fun i => g (m_of l i)) = nsum (2 * l + 1) g.
Proof.
  replace (2 * l + 1)%nat with (S l + l)%nat by lia. rewrite nsum_add. rewrite (nsum_ext_lt (S l) _ (fun k => g (l + k)%nat)).
  2:{ intros k Hk. unfold m_of. destruct (Nat.leb_spec k l); [reflexivity|lia]. }
  rewrite (nsum_ext_lt l (fun k => g (m_of l (S l + k))) (fun k => g (l - 1 - k)%nat)).
  2:{ intros k Hk. unfold m_of. destruct (Nat.leb_spec (S l + k) l); [lia|]. f_equal. lia. }
  rewrite nsum_rev. replace (S l + l)%nat with (l + S l)%nat by lia. rewrite nsum_add. ring.
Qed.
Lemma fold_norms l x : fold_left (fun acc z => fadd' acc (onorm z)) (map Some l) (Some x) = Some (fold_left (fun a z => a + modulus2 z) l x).
Proof. revert x. induction l as [|z l IH]; intros x; simpl; [reflexivity|]. rewrite IH. reflexivity. Qed.
Lemma fold_seq f n x : fold_left (fun a z => a + modulus2 z) (map f (seq 0 n)) x = x + nsum n (fun k => modulus2 (f k)).
Proof.
  revert x. induction n as [|n IH]; intros x; [simpl; ring|]. rewrite seq_S, map_app, fold_left_app, IH. simpl. ring.
Qed.
Lemma st_norm_rowval l q : st_norm l (rowval l q) = Some (invariant l q).
Proof.
  unfold st_norm, rowval. rewrite <- (map_map (fun i => q (m_of l i)) Some). rewrite fold_norms, fold_seq. cbn [option_map]. unfold invariant. f_equal. f_equal.
  rewrite Rplus_0_l, <- (nsum_m_of l (fun k => modulus2 (q k))). ring.
Qed.
Lemma st_norm_norow l : st_norm l (norow l) = None.
Proof.
  unfold st_norm, norow. replace (2 * l + 1)%nat with (S (2 * l)) by lia. cbn [seq map fold_left fadd' onorm option_map].
  assert (G : forall ns, fold_left (fun acc z => fadd' acc (onorm z)) (map (fun _ : nat => None) ns) None = None) by (induction ns; simpl; auto). rewrite G. reflexivity.
Qed.
Lemma fill_spec {A B} (f : nat -> option A) (g : A -> B) v N ev init d : (forall i, (i < N)%nat -> f i = Some (v i)) -> execution 0 N ev -> length init = N ->
  exists arr, fill f g ev init = Some arr /\ length arr = N /\ forall i, (i < N)%nat -> nth i arr d = g (v i).
Proof.
  intros H E L. apply execution_perm in E. unfold fill.
  assert (IN : forall i, In i (map snd ev) -> (i < N)%nat) by (intros i Hi; apply (Permutation_in _ E) in Hi; unfold range in Hi; apply in_seq in Hi; lia).
  assert (F : forall evs arr, (forall i, In i (map snd evs) -> (i < N)%nat) ->
    fold_left (fun arr (e : nat * nat) => match arr, f (snd e) with Some a, Some x => Some (put a (snd e) (g x)) | _, _ => None end) evs (Some arr) = Some (fold_left (fun rows j => put rows j (g (v j))) (map snd evs) arr)).
  { induction evs as [|e evs IH]; intros arr HI; [reflexivity|]. cbn [fold_left map]. rewrite H by (apply HI; left; reflexivity). apply IH. intros; apply HI; right; auto. }
  rewrite F by exact IN. destruct (put_all (fun j => g (v j)) (map snd ev) d init) as [Ln Nn]; [intros j Hj; rewrite L; apply IN; exact Hj|].
  eexists. split; [reflexivity|]. split; [rewrite Ln; exact L|]. intros i Hi. rewrite Nn. replace (existsb (Nat.eqb i) (map snd ev)) with true; [reflexivity|]. symmetry.
  apply existsb_exists. exists i. split; [|apply Nat.eqb_refl]. apply (Permutation_in _ (Permutation_sym E)). unfold range. apply in_seq. lia.
Qed.
