(** How the harmonics change when the direction is rotated about x or z, inverted or mirrored. *)
From Coq Require Import Reals ZArith List Lra Lia Bool.
From Verif Require Import RBase Vec HarmProofs SteinProofs SteinSpec WignerProofs WignerRot WignerModel WignerSpec CplxSum.
Local Open Scope R_scope.
Add Ring cplx_ring_inst : cplx_ring.

(** ** Derivatives of complex functions of a real variable *)
Definition cder (f : R -> cplx) (t : R) (d : cplx) : Prop := derivable_pt_lim (fun s => fst (f s)) t (fst d) /\ derivable_pt_lim (fun s => snd (f s)) t (snd d).
Lemma dl_eq (f g : R -> R) t d e : (forall s, f s = g s) -> d = e -> derivable_pt_lim f t d -> derivable_pt_lim g t e.
Proof. intros E <- H eps P. destruct (H eps P) as (del & K). exists del. intros h N L. rewrite <- !E. apply K; assumption. Qed.
Lemma cder_eq f g t d e : (forall s, f s = g s) -> d = e -> cder f t d -> cder g t e.
Proof. intros E <- [A B]. split; [apply (dl_eq (fun s => fst (f s)) _ t (fst d))|apply (dl_eq (fun s => snd (f s)) _ t (snd d))]; try assumption; try reflexivity; intros s; rewrite E; reflexivity. Qed.
Lemma cder_const z t : cder (fun _ => z) t c0.
Proof. split; apply derivable_pt_lim_const. Qed.
Lemma cder_add f g t d e : cder f t d -> cder g t e -> cder (fun s => cadd (f s) (g s)) t (cadd d e).
Proof. intros [A B] [C D]. split; [exact (derivable_pt_lim_plus _ _ t _ _ A C)|exact (derivable_pt_lim_plus _ _ t _ _ B D)]. Qed.
Lemma cder_mul f g t d e : cder f t d -> cder g t e -> cder (fun s => cmul (f s) (g s)) t (cadd (cmul d (g t)) (cmul (f t) e)).
Proof.
  intros [A B] [C D]. unfold cmul, cadd. split; cbn [fst snd].
  - eapply dl_eq; [| |exact (derivable_pt_lim_minus _ _ t _ _ (derivable_pt_lim_mult _ _ t _ _ A C) (derivable_pt_lim_mult _ _ t _ _ B D))]; [reflexivity|]. cbv beta. ring.
  - eapply dl_eq; [| |exact (derivable_pt_lim_plus _ _ t _ _ (derivable_pt_lim_mult _ _ t _ _ A D) (derivable_pt_lim_mult _ _ t _ _ B C))]; [reflexivity|]. cbv beta. ring.
Qed.
Lemma cder_unique f t d e : cder f t d -> cder f t e -> d = e.
Proof. intros [A B] [C D]. destruct d, e. f_equal; [exact (uniqueness_limite _ _ _ _ A C)|exact (uniqueness_limite _ _ _ _ B D)]. Qed.
Lemma cder_scale k f t d : cder f t d -> cder (fun s => cscale k (f s)) t (cscale k d).
Proof.
  intros H. eapply cder_eq; [| |exact (cder_mul (fun _ => cr k) f t c0 d (cder_const (cr k) t) H)].
  - intros s. cbv beta. rewrite cscale_cr. reflexivity.
  - rewrite cscale_cr. ring.
Qed.
Lemma cder_csum n f t d : (forall k, (k < n)%nat -> cder (f k) t (d k)) -> cder (fun s => csum n (fun k => f k s)) t (csum n d).
Proof.
  induction n as [|n IH]; intros H; [apply (cder_const c0)|]. cbn [csum]. apply cder_add; [apply IH; intros k Hk; apply H; lia|apply H; lia].
Qed.
Lemma cder_csum_ex n f t : (forall k, (k < n)%nat -> exists d, cder (f k) t d) -> exists d, cder (fun s => csum n (fun k => f k s)) t d.
Proof.
  induction n as [|n IH]; intros H; [exists c0; apply (cder_const c0)|]. destruct IH as (d & D); [intros k Hk; apply H; lia|]. destruct (H n ltac:(lia)) as (e & E). exists (cadd d e). cbn [csum]. apply cder_add; assumption.
Qed.
Lemma cder_pow n f t d : cder f t d -> cder (fun s => cpow (f s) n) t (cmul (cmul (cr (INR n)) (cpow (f t) (n - 1))) d).
Proof.
  intros H. induction n as [|n IH].
  - eapply cder_eq; [| |apply (cder_const cone t)]; [reflexivity|]. simpl. rewrite cr_0. ring.
  - cbn [cpow]. eapply cder_eq; [| |exact (cder_mul _ _ t _ _ H IH)]; [reflexivity|]. rewrite S_INR, cr_add, cr_1. replace (S n - 1)%nat with n by lia.
    destruct n as [|n]; [simpl; rewrite cr_0; change (1, 0) with cone; ring|]. replace (S n - 1)%nat with n by lia. cbn [cpow]. ring.
Qed.
Lemma cder_dp n f t d : cder f t d -> cder (fun s => dp n (f s)) t (cscale (/ INR (fact n)) (cmul (cmul (cr (INR n)) (cpow (f t) (n - 1))) d)).
Proof. intros H. unfold dp. apply cder_scale, cder_pow, H. Qed.

(** ** Rotation about x *)
Definition rx (t : R) (v : vec3) : vec3 := V3 (vx v) (vy v * cos t - vz v * sin t) (vy v * sin t + vz v * cos t).
Lemma d_y v t : derivable_pt_lim (fun s => vy (rx s v)) t (- vz (rx t v)).
Proof.
  unfold rx; cbn [vy vz]. eapply dl_eq; [| |exact (derivable_pt_lim_minus _ _ t _ _ (derivable_pt_lim_scal _ (vy v) t _ (derivable_pt_lim_cos t)) (derivable_pt_lim_scal _ (vz v) t _ (derivable_pt_lim_sin t)))]; [reflexivity|]. cbv beta. ring.
Qed.
Lemma d_z v t : derivable_pt_lim (fun s => vz (rx s v)) t (vy (rx t v)).
Proof.
  unfold rx; cbn [vy vz]. eapply dl_eq; [| |exact (derivable_pt_lim_plus _ _ t _ _ (derivable_pt_lim_scal _ (vy v) t _ (derivable_pt_lim_sin t)) (derivable_pt_lim_scal _ (vz v) t _ (derivable_pt_lim_cos t)))]; [reflexivity|]. cbv beta. ring.
Qed.
Lemma d_raising v t : cder (fun s => raising (rx s v)) t (0, vz (rx t v) / 2).
Proof.
  split; unfold raising; cbn [fst snd].
  - eapply dl_eq; [| |exact (derivable_pt_lim_const (- vx v / 2) t)]; reflexivity.
  - eapply dl_eq; [| |exact (derivable_pt_lim_scal _ (- / 2) t _ (d_y v t))]; [intros s; unfold mult_real_fct; field|field].
Qed.
Lemma d_lowering v t : cder (fun s => lowering (rx s v)) t (0, vz (rx t v) / 2).
Proof.
  split; unfold lowering; cbn [fst snd].
  - eapply dl_eq; [| |exact (derivable_pt_lim_const (vx v / 2) t)]; reflexivity.
  - eapply dl_eq; [| |exact (derivable_pt_lim_scal _ (- / 2) t _ (d_y v t))]; [intros s; unfold mult_real_fct; field|field].
Qed.
Lemma d_vz v t : cder (fun s => cr (vz (rx s v))) t (cr (vy (rx t v))).
Proof. split; cbn [fst snd cr]; [apply d_z|apply derivable_pt_lim_const]. Qed.
Definition half_i : cplx := (0, / 2).
(** The change of the form is half_i (X d/dY + Y d/dX). *)
Definition mixed (v : vec3) (X Y : cplx) : cplx :=
  cadd (cadd (cmul (cr (vz v)) (cmul X X)) (cmul (cmul (cr 2) (cadd (raising v) (lowering v))) (cmul X Y))) (cmul (cr (vz v)) (cmul Y Y)).
Lemma d_vform v X Y t : cder (fun s => vform (rx s v) X Y) t (cmul half_i (mixed (rx t v) X Y)).
Proof.
  unfold vform, quad. eapply cder_eq; [| |exact (cder_add _ _ t _ _ (cder_add _ _ t _ _ (cder_mul _ _ t _ _ (d_raising v t) (cder_const (cmul X X) t)) (cder_mul _ _ t _ _ (d_vz v t) (cder_const (cmul X Y) t))) (cder_mul _ _ t _ _ (d_lowering v t) (cder_const (cmul Y Y) t)))]; [reflexivity|].
  unfold mixed, half_i, raising, lowering. destruct X, Y. unfold cr, cadd, cmul, c0; simpl. f_equal; field.
Qed.
Lemma d_lin X Y : cder (fun s => cadd X (cscale s Y)) 0 Y.
Proof.
  destruct X as [x x'], Y as [y y']. unfold cadd, cscale; split; cbn [fst snd].
  - eapply dl_eq; [| |exact (derivable_pt_lim_plus _ _ 0 _ _ (derivable_pt_lim_const x 0) (derivable_pt_lim_mult _ _ 0 _ _ (derivable_pt_lim_id 0) (derivable_pt_lim_const y 0)))]; [reflexivity|unfold id, fct_cte; ring].
  - eapply dl_eq; [| |exact (derivable_pt_lim_plus _ _ 0 _ _ (derivable_pt_lim_const x' 0) (derivable_pt_lim_mult _ _ 0 _ _ (derivable_pt_lim_id 0) (derivable_pt_lim_const y' 0)))]; [reflexivity|unfold id, fct_cte; ring].
Qed.
Lemma lin_0 X Y : cadd X (cscale 0 Y) = X. Proof. rewrite cscale_cr, cr_0. ring. Qed.
Lemma d_shear v X Y : cder (fun s => vform v (cadd X (cscale s Y)) (cadd Y (cscale s X))) 0 (mixed v X Y).
Proof.
  unfold vform, quad. assert (A := d_lin X Y). assert (B := d_lin Y X).
  eapply cder_eq; [| |exact (cder_add _ _ 0 _ _ (cder_add _ _ 0 _ _ (cder_mul _ _ 0 _ _ (cder_const (raising v) 0) (cder_mul _ _ 0 _ _ A A)) (cder_mul _ _ 0 _ _ (cder_const (cr (vz v)) 0) (cder_mul _ _ 0 _ _ A B))) (cder_mul _ _ 0 _ _ (cder_const (lowering v) 0) (cder_mul _ _ 0 _ _ B B)))]; [reflexivity|].
  cbv beta. rewrite !lin_0. unfold mixed. replace (cr 2) with (cadd cone cone) by (unfold cr, cone, cadd; simpl; f_equal; ring). ring.
Qed.
Lemma harm_der_ex l k v t : exists d, cder (fun s => harm_sum l k (rx s v)) t d.
Proof.
  unfold harm_sum. apply cder_csum_ex. intros p _. apply cder_csum_ex. intros q _. destruct (k =? p + l - q)%nat; [|exists c0; apply cder_const].
  eexists. apply cder_mul; [apply cder_mul|]; apply cder_dp; [apply d_raising|apply d_lowering|apply d_vz].
Qed.
Lemma harm_sum_out l k v : (2 * l < k)%nat -> harm_sum l k v = c0.
Proof.
  intros H. unfold harm_sum. apply csum_zero. intros p Hp. apply csum_zero. intros q Hq. destruct (Nat.eqb_spec k (p + l - q)); [lia|reflexivity].
Qed.
Lemma harm_der l k v t : (k < 2 * l + 1)%nat -> cder (fun s => harm_sum l k (rx s v)) t
  (cmul half_i (cadd (cmul (cr (INR (S k))) (harm_sum l (S k) (rx t v))) (match k with O => c0 | S j => cmul (cr (INR (2 * l - j))) (harm_sum l j (rx t v)) end))).
Proof.
  intros Hk. set (u := rx t v).
  (* derivatives of all coefficients, collected *)
  assert (EX : forall n, exists d : nat -> cplx, forall k, (k < n)%nat -> cder (fun s => harm_sum l k (rx s v)) t (d k)).
  { induction n as [|n (d & IH)]; [exists (fun _ => c0); intros; lia|]. destruct (harm_der_ex l n v t) as (e & E). exists (fun k => if (k =? n)%nat then e else d k).
    intros k' Hk'. destruct (Nat.eqb_spec k' n) as [->|]; [exact E|]. apply IH. lia. }
  destruct (EX (2 * l + 1)%nat) as (d & D). rewrite <- (coef_unique (2 * l + 1) d (fun k => cmul half_i (cadd (cmul (cr (INR (S k))) (harm_sum l (S k) u)) (match k with O => c0 | S j => cmul (cr (INR (2 * l - j))) (harm_sum l j u) end)))); [apply D; exact Hk| |exact Hk].
  intros j _. set (X := cpow (root (2 * l + 1)) j).
  (* the rotation *)
  assert (A : csum (2 * l + 1) (fun k => cmul (d k) (cpow X k)) = cscale (/ INR (fact l)) (cmul (cmul (cr (INR l)) (cpow (vform u X cone) (l - 1))) (cmul half_i (mixed u X cone)))).
  { apply (cder_unique (fun s => dp l (vform (rx s v) X cone)) t).
    - eapply cder_eq; [| |apply (cder_csum (2 * l + 1) (fun k s => cmul (harm_sum l k (rx s v)) (cpow X k)) t (fun k => cmul (d k) (cpow X k)))].
      + intros s. cbv beta. rewrite <- form_coefficients. apply csum_ext. intros k' _. rewrite cpow_c1. ring.
      + reflexivity.
      + intros k' Hk'. eapply cder_eq; [| |exact (cder_mul _ _ t _ _ (D k' Hk') (cder_const (cpow X k') t))]; [reflexivity|cbv beta; ring].
    - exact (cder_dp l _ t _ (d_vform v X cone t)). }
  (* the shear *)
  assert (B : csum (2 * l + 1) (fun k => cmul (harm_sum l k u) (cadd (cmul (cr (INR k)) (cpow X (k - 1))) (cmul (cr (INR (2 * l - k))) (cpow X (S k))))) = cscale (/ INR (fact l)) (cmul (cmul (cr (INR l)) (cpow (vform u X cone) (l - 1))) (mixed u X cone))).
  { apply (cder_unique (fun s => dp l (vform u (cadd X (cscale s cone)) (cadd cone (cscale s X)))) 0).
    - eapply cder_eq; [| |apply (cder_csum (2 * l + 1) (fun k s => cmul (harm_sum l k u) (cmul (cpow (cadd X (cscale s cone)) k) (cpow (cadd cone (cscale s X)) (2 * l - k)))) 0 (fun k => cmul (harm_sum l k u) (cadd (cmul (cr (INR k)) (cpow X (k - 1))) (cmul (cr (INR (2 * l - k))) (cpow X (S k))))))].
      + intros s. cbv beta. apply form_coefficients.
      + reflexivity.
      + intros k' Hk'.
      eapply cder_eq; [| |exact (cder_mul _ _ 0 _ _ (cder_const (harm_sum l k' u) 0) (cder_mul _ _ 0 _ _ (cder_pow k' _ 0 _ (d_lin X cone)) (cder_pow (2 * l - k') _ 0 _ (d_lin cone X))))]; [reflexivity|].
      cbv beta. rewrite !lin_0, !cpow_c1. cbn [cpow]. ring.
    - assert (S := cder_dp l _ 0 _ (d_shear u X cone)). cbv beta in S. rewrite !lin_0 in S. exact S. }
  rewrite A. replace (cscale (/ INR (fact l)) (cmul (cmul (cr (INR l)) (cpow (vform u X cone) (l - 1))) (cmul half_i (mixed u X cone)))) with (cmul half_i (cscale (/ INR (fact l)) (cmul (cmul (cr (INR l)) (cpow (vform u X cone) (l - 1))) (mixed u X cone)))) by (rewrite !cscale_cr; ring).
  rewrite <- B, <- csum_mul. clear A B D d.
  (* reindexing *)
  transitivity (cadd (csum (2 * l + 1) (fun k => cmul half_i (cmul (cmul (cr (INR k)) (harm_sum l k u)) (cpow X (k - 1))))) (csum (2 * l + 1) (fun k => cmul half_i (cmul (cmul (cr (INR (2 * l - k))) (harm_sum l k u)) (cpow X (S k)))))).
  { rewrite <- csum_add. apply csum_ext. intros k' _. ring. }
  transitivity (cadd (csum (2 * l + 1) (fun k => cmul half_i (cmul (cmul (cr (INR (S k))) (harm_sum l (S k) u)) (cpow X k)))) (csum (2 * l + 1) (fun k => cmul half_i (cmul (match k with O => c0 | S j => cmul (cr (INR (2 * l - j))) (harm_sum l j u) end) (cpow X k))))).
  - f_equal.
    + replace (2 * l + 1)%nat with (S (2 * l)) by lia. rewrite csum_first. change (INR 0) with 0. rewrite cr_0. rewrite (csum_ext (2 * l) (fun k => cmul half_i (cmul (cmul (cr (INR (S k))) (harm_sum l (S k) u)) (cpow X (S k - 1)))) (fun k => cmul half_i (cmul (cmul (cr (INR (S k))) (harm_sum l (S k) u)) (cpow X k)))) by (intros k' _; replace (S k' - 1)%nat with k' by lia; reflexivity).
      cbn [csum]. rewrite (harm_sum_out l (S (2 * l))) by lia. ring.
    + replace (2 * l + 1)%nat with (S (2 * l)) by lia. symmetry. rewrite (csum_first (2 * l)). cbn [csum]. rewrite Nat.sub_diag. change (INR 0) with 0. rewrite cr_0. ring.
  - rewrite <- csum_add. apply csum_ext. intros k' _. ring.
Qed.

(** ** Rotation about z *)
Definition rz (t : R) (v : vec3) : vec3 := V3 (vx v * cos t - vy v * sin t) (vx v * sin t + vy v * cos t) (vz v).
Lemma coef_unique_form l a b : (forall X, csum (2 * l + 1) (fun k => cmul (a k) (cpow X k)) = csum (2 * l + 1) (fun k => cmul (b k) (cpow X k))) -> forall k, (k < 2 * l + 1)%nat -> a k = b k.
Proof. intros H k Hk. apply (coef_unique (2 * l + 1)); [|exact Hk]. intros j _. apply H. Qed.
Lemma harm_rz l k t v : (k < 2 * l + 1)%nat -> harm_sum l k (rz t v) = cmul (cmul (cpow (expi (t / 2)) k) (cpow (cconj (expi (t / 2))) (2 * l - k))) (harm_sum l k v).
Proof.
  intros Hk. revert k Hk. apply coef_unique_form. intros X. set (h := expi (t / 2)).
  transitivity (dp l (vform v (cmul h X) (cconj h))).
  - transitivity (dp l (vform (rz t v) X cone)); [rewrite <- form_coefficients; apply csum_ext; intros k _; rewrite cpow_c1; ring|]. f_equal.
    assert (HH : cmul h h = expi t) by (unfold h; rewrite expi_add; f_equal; lra). assert (U : cmul h (cconj h) = cone) by apply expi_unit.
    assert (R1 : raising (rz t v) = cmul (expi t) (raising v)) by (unfold raising, rz, expi, cmul; cbn [vx vy fst snd]; f_equal; field).
    assert (L1 : lowering (rz t v) = cmul (cconj (expi t)) (lowering v)) by (unfold lowering, rz, expi, cmul, cconj; cbn [vx vy fst snd]; f_equal; field).
    unfold vform, quad. rewrite R1, L1, <- HH, cconj_mul. cbn [vz rz]. replace (cmul (cr (vz v)) (cmul X cone)) with (cmul (cr (vz v)) (cmul (cmul h (cconj h)) (cmul X cone))) by (rewrite U; ring). ring.
  - rewrite <- form_coefficients. apply csum_ext. intros k _. rewrite cpow_cmul. ring.
Qed.
(** ** Inversion and the mirror y -> -y *)
Lemma harm_inv l k v : (k < 2 * l + 1)%nat -> harm_sum l k (vscale (-1) v) = cmul (cr ((-1) ^ l)) (harm_sum l k v).
Proof.
  intros Hk. revert k Hk. apply coef_unique_form. intros X.
  transitivity (dp l (vform (vscale (-1) v) X cone)); [rewrite <- form_coefficients; apply csum_ext; intros k _; rewrite cpow_c1; ring|].
  transitivity (cmul (cr ((-1) ^ l)) (dp l (vform v X cone))).
  - replace (vform (vscale (-1) v) X cone) with (cmul (vform v X cone) (cr (-1))) by (unfold vform, quad, raising, lowering, vscale; destruct X; unfold cr, cone, cadd, cmul; simpl; f_equal; field).
    rewrite dp_mul, cpow_cr. ring.
  - rewrite <- form_coefficients, <- csum_mul. apply csum_ext. intros k _. rewrite cpow_c1. ring.
Qed.
Definition my (v : vec3) : vec3 := V3 (vx v) (- vy v) (vz v).
Lemma harm_my l k v : harm_sum l k (my v) = cconj (harm_sum l k v).
Proof.
  unfold harm_sum. rewrite csum_conj. apply csum_ext. intros p _. rewrite csum_conj. apply csum_ext. intros q _. destruct (k =? p + l - q)%nat; [|unfold cconj, c0; simpl; f_equal; ring].
  rewrite !cconj_mul, !dp_conj, cconj_cr. f_equal. f_equal; f_equal; unfold raising, lowering, my, cconj; cbn [vx vy fst snd]; f_equal; field.
Qed.
