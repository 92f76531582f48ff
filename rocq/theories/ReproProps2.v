(** C77: the nematic tensor against its definition in exact arithmetic. *)
From Coq Require Import Lia Lra Psatz.
From Verif Require Import ParProofs F32Proofs F32Proofs4 F32Props Vec FaabbProofs FaabbProofs2 ReproProofs ReproProps ReproProofs2 ReproSpec2.
Local Open Scope R_scope.

(** Every entry of a particle's tensor, computed in single precision, is within 48 u of 3/2 u_a u_b - 1/2 delta_ab of the exact unit vector. *)
Theorem C77_entries (v : fvec) (a b : nat) : direction v -> (a < 3)%nat -> (b < 3)%nat ->
  finite (nematic_q v (3 * a + b)) = true /\ Rabs (val (nematic_q v (3 * a + b)) - exact_entry a b v) <= 48 * u.
Proof.
  intros [Fv HN] Ha Hb. destruct (comps v HN) as (Bx & By & Bz). destruct Fv as (Fx & Fy & Fz). assert (Fv : fin3 v) by (repeat split; assumption). assert (PN := N_pos v HN).
  destruct (component_near v Fv HN _ Fx Bx) as [Gx Ex]. destruct (component_near v Fv HN _ Fy By) as [Gy Ey]. destruct (component_near v Fv HN _ Fz Bz) as [Gz Ez].
  assert (W : forall x, Rabs x <= norm (rv v) -> Rabs (x / norm (rv v)) <= 1). { intros x H. unfold Rdiv. rewrite Rabs_mult, (Rabs_pos_eq (/ norm (rv v))) by (left; apply Rinv_0_lt_compat; lra). apply Rmult_le_reg_r with (norm (rv v)); [lra|]. rewrite Rmult_assoc, Rinv_l by lra. lra. }
  assert (Wx := W _ Bx). assert (Wy := W _ By). assert (Wz := W _ Bz). assert (U : 0 < u) by (unfold u; lra).
  set (X := val (fvx v) / norm (rv v)) in *. set (Y := val (fvy v) / norm (rv v)) in *. set (Z := val (fvz v) / norm (rv v)) in *.
  set (x := fmul (fvx v) (fdiv fone (fsqrt (fdot v v)))) in *. set (y := fmul (fvy v) (fdiv fone (fsqrt (fdot v v)))) in *. set (z := fmul (fvz v) (fdiv fone (fsqrt (fdot v v)))) in *.
  assert (OFF : forall p q P Q, finite p = true -> finite q = true -> Rabs (val p - P) <= 10 * u -> Rabs (val q - Q) <= 10 * u -> Rabs P <= 1 -> Rabs Q <= 1 ->
    finite (fmul (fmul (lit 3 (-1)) p) q) = true /\ Rabs (val (fmul (fmul (lit 3 (-1)) p) q) - (3 / 2 * P * Q - 0)) <= 48 * u).
  { intros p q P Q Fp Fq Ep Eq HP HQ. destruct (entry_near p q P Q Fp Fq Ep Eq HP HQ) as [F E]. split; [exact F|]. rewrite Rminus_0_r. lra. }
  assert (DIA : forall p P, finite p = true -> Rabs (val p - P) <= 10 * u -> Rabs P <= 1 ->
    finite (fsub (fmul (fmul (lit 3 (-1)) p) p) (lit 1 (-1))) = true /\ Rabs (val (fsub (fmul (fmul (lit 3 (-1)) p) p) (lit 1 (-1))) - (3 / 2 * P * P - 1 / 2)) <= 48 * u).
  { intros p P Fp Ep HP. destruct (entry_near p p P P Fp Fp Ep Ep HP HP) as [F E]. apply diagonal_near; [exact F|exact E|]. rewrite !Rabs_mult, (Rabs_pos_eq (3 / 2)) by lra. assert (P0 := Rabs_pos P). nra. }
  destruct a as [|[|[|a]]], b as [|[|[|b]]]; try lia; cbn [Nat.mul Nat.add nematic_q]; unfold exact_entry, along; cbn [Nat.eqb]; cbv zeta; unfold fnormalized, fscaled; cbn [fvx fvy fvz]; fold x y z X Y Z;
  [apply DIA|apply OFF|apply OFF|apply OFF|apply DIA|apply OFF|apply OFF|apply OFF|apply DIA]; assumption.
Qed.
Lemma entry_size (v : fvec) (a b : nat) : direction v -> Rabs (exact_entry a b v) <= 3 / 2.
Proof.
  intros [Fv HN]. destruct (comps v HN) as (Bx & By & Bz). assert (PN := N_pos v HN).
  assert (W : forall x, Rabs x <= norm (rv v) -> Rabs (x / norm (rv v)) <= 1). { intros x H. unfold Rdiv. rewrite Rabs_mult, (Rabs_pos_eq (/ norm (rv v))) by (left; apply Rinv_0_lt_compat; lra). apply Rmult_le_reg_r with (norm (rv v)); [lra|]. rewrite Rmult_assoc, Rinv_l by lra. lra. }
  assert (WA : forall a, Rabs (along v a) <= 1) by (intros [|[|c]]; unfold along; apply W; assumption). unfold exact_entry. assert (A := WA a). assert (B := WA b). destruct (Nat.eqb_spec a b) as [<-|N].
  - apply Rabs_le_inv in A. apply Rabs_le. set (t := along v a) in *. nra.
  - rewrite Rminus_0_r, !Rabs_mult, (Rabs_pos_eq (3 / 2)) by lra. assert (P0 := Rabs_pos (along v a)). assert (P1 := Rabs_pos (along v b)). nra.
Qed.
(** Under every schedule every entry of the nematic tensor is within (4 N + 64) u of the exact mean over the particles. *)
Theorem C77_tensor (us : list fvec) ev old (a b : nat) : execution 0 (length us) ev -> (1 <= length us)%nat -> (Z.of_nat (length us) <= 2 ^ 22)%Z -> Forall direction us -> (a < 3)%nat -> (b < 3)%nat ->
  finite (nematic_tensor us ev old (3 * a + b)) = true /\ Rabs (val (nematic_tensor us ev old (3 * a + b)) - mean (map (exact_entry a b) us)) <= (4 * INR (length us) + 64) * u.
Proof.
  intros HE H1 H2 HD Ha Hb. set (c := (3 * a + b)%nat). assert (U : 0 < u < / 1000) by (unfold u; lra).
  assert (HQ : Forall (fun v => finite (nematic_q v c) = true /\ Rabs (val (nematic_q v c)) <= 2) us).
  { eapply Forall_impl; [|exact HD]. intros v Dv. destruct (C77_entries v a b Dv Ha Hb) as [F E]. split; [exact F|]. assert (S := entry_size v a b Dv). fold c in E.
    replace (val (nematic_q v c)) with (exact_entry a b v + (val (nematic_q v c) - exact_entry a b v)) by ring. eapply Rle_trans; [apply Rabs_triang|]. unfold u in *. lra. }
  destruct (C77_nematic us ev old c HE H1 H2 HQ) as [F E]. cbv zeta in E. split; [exact F|]. set (n := INR (length us)) in *. assert (N1 : 1 <= n) by (apply (le_INR 1); exact H1).
  set (q := map (fun v => nematic_q v c) us) in *.
  assert (SS : size_sum q <= 2 * n). { unfold q, n. clear - HQ. induction HQ as [|v us [_ A] H IH]; [unfold size_sum; simpl; lra|]. unfold size_sum in *. cbn [map fold_right length]. rewrite S_INR. lra. }
  assert (DD : Rabs (exact_sum q - fold_right Rplus 0 (map (exact_entry a b) us)) <= 48 * u * n).
  { unfold q, n, c. clear - HD Ha Hb. induction HD as [|v us Dv H IH]; [unfold exact_sum; simpl; rewrite Rminus_0_r, Rabs_R0; lra|]. unfold exact_sum in *. cbn [map fold_right length]. rewrite S_INR.
    destruct (C77_entries v a b Dv Ha Hb) as [_ E]. set (s := fold_right _ 0 (map _ us)) in *. set (t := fold_right Rplus 0 _) in *. set (x := val (nematic_q v (3 * a + b))) in *. set (y := exact_entry a b v) in *.
    replace (x + s - (y + t)) with ((x - y) + (s - t)) by ring. eapply Rle_trans; [apply Rabs_triang|]. lra. }
  unfold mean. rewrite map_length. fold n. set (t := fold_right Rplus 0 (map (exact_entry a b) us)) in *. set (T := val (nematic_tensor us ev old c)) in *.
  replace (T - t / n) with ((T - exact_sum q / n) + (exact_sum q - t) / n) by (field; lra). eapply Rle_trans; [apply Rabs_triang|].
  assert (A : Rabs ((exact_sum q - t) / n) <= 48 * u). { unfold Rdiv. rewrite Rabs_mult, (Rabs_pos_eq (/ n)) by (left; apply Rinv_0_lt_compat; lra). apply Rmult_le_reg_r with n; [lra|]. rewrite Rmult_assoc, Rinv_l by lra. lra. }
  assert (B : size_sum q / n <= 2). { unfold Rdiv. apply Rmult_le_reg_r with n; [lra|]. rewrite Rmult_assoc, Rinv_l by lra. lra. }
  assert (C : 2 * (n + 2) * u * (size_sum q / n) <= 2 * (n + 2) * u * 2) by (apply Rmult_le_compat_l; [assert (0 <= (n + 2) * u) by (apply Rmult_le_pos; lra); lra|exact B]).
  assert (TI : bpow radix2 (-150) <= u) by (rewrite u_bpow; apply bpow_le; lia). lra.
Qed.
(** The three directions of the refutation are ordinary. *)
Lemma size_dir (v : fvec) : fin3 v -> Rabs (val (fvx v)) <= 1000 -> Rabs (val (fvy v)) <= 1000 -> Rabs (val (fvz v)) <= 1000 -> (1 <= Rabs (val (fvx v)) \/ 1 <= Rabs (val (fvy v)) \/ 1 <= Rabs (val (fvz v))) -> direction v.
Proof.
  intros F X Y Z H. split; [exact F|]. assert (L := bpow_le radix2 (-40) 0 ltac:(lia)). change (bpow radix2 0) with 1 in L. assert (L' := bpow_le radix2 12 40 ltac:(lia)). change (bpow radix2 12) with 4096 in L'.
  assert (N := norm_nonneg (rv v)). assert (Q := norm_sq (rv v)). unfold dot, rv in Q. cbn [vx vy vz] in Q. fold (rv v) in Q. set (n := norm (rv v)) in *.
  assert (S : forall x, x * x <= n * n -> Rabs x <= n). { intros x K. apply Rsqr_incr_0_var; [|lra]. rewrite <- Rsqr_abs. exact K. }
  assert (SX := S (val (fvx v)) ltac:(rewrite Q; nra)). assert (SY := S (val (fvy v)) ltac:(rewrite Q; nra)). assert (SZ := S (val (fvz v)) ltac:(rewrite Q; nra)).
  split; [destruct H as [H|[H|H]]; lra|]. assert (NS : n <= 3000). { apply Rsqr_incr_0_var; [|lra]. unfold Rsqr. rewrite Q. apply Rabs_le_inv in X. apply Rabs_le_inv in Y. apply Rabs_le_inv in Z. nra. } lra.
Qed.
Example C77_tensor_case : direction (FV fzero (lit 3 0) (lit (-4) 0)) /\ exact_entry 1 2 (FV fzero (lit 3 0) (lit (-4) 0)) = - (18 / 25) /\ exact_entry 0 0 (FV fzero (lit 3 0) (lit (-4) 0)) = - (1 / 2) /\
  B2SF (nematic_q (FV fzero (lit 3 0) (lit (-4) 0)) 5) = SpecFloat.S754_finite true 12079596 (-24).
Proof.
  destruct (is_lit_Z 3 ltac:(lia)) as [F3 W3]. destruct (is_lit_Z (-4) ltac:(lia)) as [F4 W4]. split.
  - apply size_dir; [split; [reflexivity|split; [exact F3|exact F4]]| | | |]; cbn [fvx fvy fvz]; rewrite ?W3, ?W4; [cbn [fzero B2R]; rewrite Rabs_R0; lra|rewrite Rabs_pos_eq; lra|rewrite Rabs_left; lra|right; left; rewrite Rabs_pos_eq; lra].
  - assert (E : norm (rv (FV fzero (lit 3 0) (lit (-4) 0))) = 5). { unfold norm, dot, rv. cbn [vx vy vz fvx fvy fvz fzero B2R]. rewrite W3, W4. replace (0 * 0 + 3 * 3 + -4 * -4) with (5 * 5) by ring. apply sqrt_square. lra. }
    unfold exact_entry, along. rewrite E. cbn [Nat.eqb fvx fvy fvz fzero B2R]. rewrite W3, W4. split; [lra|]. split; [lra|]. vm_compute. reflexivity.
Qed.
Print Assumptions C77_entries.
Print Assumptions C77_tensor.
