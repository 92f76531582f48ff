From Verif Require Import MArrayModel MArraySpec.

Lemma prodz_acc l : forall a, fold_left Z.mul l a = a * size_of l.
Proof. induction l as [|s l IH]; intros a; simpl; [lia|]. rewrite IH. lia. Qed.
Lemma prodz_size l : prodz l = size_of l.
Proof. unfold prodz. rewrite prodz_acc. lia. Qed.

Lemma size_nonneg shape : valid_shape shape -> 0 <= size_of shape.
Proof. induction 1; simpl; nia. Qed.

Lemma in_shape_pos shape idx : in_shape shape idx -> 0 < size_of shape.
Proof. induction 1; simpl; nia. Qed.

Lemma in_shape_length shape idx : in_shape shape idx -> length shape = length idx.
Proof. induction 1; simpl; auto. Qed.

(** The reverse loop computes the row-major offset. *)
Lemma loop_spec shape : forall idx, length idx = length shape ->
  fold_left (fun '(prod, acc) '(i, s) => (prod * s, acc + i * prod)) (rev (combine idx shape)) (1, 0)
  = (size_of shape, row_major shape idx).
Proof.
  induction shape as [|s ss IH]; intros [|i is] H; simpl in *; try discriminate; auto.
  rewrite fold_left_app, IH by lia. simpl. f_equal; lia.
Qed.
Lemma get_index_static_spec shape idx : length idx = length shape -> get_index_static shape idx = row_major shape idx.
Proof. intros H. unfold get_index_static. rewrite loop_spec; auto. Qed.

Lemma row_major_range shape idx : in_shape shape idx -> 0 <= row_major shape idx < size_of shape.
Proof.
  induction 1 as [|s i ss is H HF IH]; simpl; [lia|].
  assert (0 < size_of ss) by (eapply in_shape_pos; eauto). nia.
Qed.

Lemma row_major_lex shape : forall i j, in_shape shape i -> in_shape shape j -> lex i j ->
  row_major shape i < row_major shape j.
Proof.
  induction shape as [|s ss IH]; intros i j Hi Hj L.
  - inversion Hi; inversion Hj; subst; inversion L.
  - inversion Hi as [|? x ? is Hx His]; inversion Hj as [|? y ? js Hy Hjs]; subst. simpl.
    pose proof (row_major_range _ _ His). pose proof (row_major_range _ _ Hjs).
    inversion L; subst; [nia|]. specialize (IH is js His Hjs ltac:(assumption)). lia.
Qed.

Lemma lex_total shape : forall i j, in_shape shape i -> in_shape shape j -> i = j \/ lex i j \/ lex j i.
Proof.
  induction shape as [|s ss IH]; intros i j Hi Hj; inversion Hi as [|? x ? is Hx His]; inversion Hj as [|? y ? js Hy Hjs]; subst; auto.
  destruct (Z.lt_trichotomy x y) as [L|[->|L]].
  - right; left; constructor; auto.
  - destruct (IH _ _ His Hjs) as [->|[L|L]]; auto.
    + right; left; apply lex_later; auto.
    + right; right; apply lex_later; auto.
  - right; right; constructor; auto.
Qed.

Lemma row_major_inj shape i j : in_shape shape i -> in_shape shape j -> row_major shape i = row_major shape j -> i = j.
Proof.
  intros Hi Hj E. destruct (lex_total shape i j Hi Hj) as [|[L|L]]; auto; apply (row_major_lex shape) in L; auto; lia.
Qed.

Lemma row_major_order shape i j : in_shape shape i -> in_shape shape j ->
  (row_major shape i < row_major shape j <-> lex i j).
Proof.
  intros Hi Hj. split; [|apply row_major_lex; auto]. intros L.
  destruct (lex_total shape i j Hi Hj) as [->|[|L']]; auto; [lia|].
  apply (row_major_lex shape) in L'; auto; lia.
Qed.

(** multi-index loop *)
Lemma multi_loop_spec shape : forall k, Forall (fun s => 0 < s) shape -> 0 <= k < size_of shape ->
  in_shape shape (multi_loop shape (size_of shape) k) /\ row_major shape (multi_loop shape (size_of shape) k) = k.
Proof.
  induction shape as [|s ss IH]; intros k HP Hk; simpl in *; [split; [constructor|lia]|].
  inversion HP as [|? ? Hs HPs]; subst.
  rewrite Z.mul_comm, Z.div_mul by lia.
  assert (Hss : 0 < size_of ss) by nia.
  destruct (IH (k mod size_of ss) HPs) as [H1 H2]; [apply Z.mod_pos_bound; lia|].
  split.
  - constructor; auto. split; [apply Z.div_pos; lia|]. apply Z.div_lt_upper_bound; nia.
  - rewrite H2. pose proof (Z.div_mod k (size_of ss)). lia.
Qed.

Lemma multi_loop_row_major shape idx : in_shape shape idx ->
  multi_loop shape (size_of shape) (row_major shape idx) = idx.
Proof.
  intros H. assert (HP : Forall (fun s => 0 < s) shape).
  { clear -H. induction H; constructor; auto; lia. }
  destruct (multi_loop_spec shape (row_major shape idx) HP (row_major_range _ _ H)) as [A B].
  eapply row_major_inj; eauto.
Qed.

Lemma to_int32_id z : - 2 ^ 31 <= z < 2 ^ 31 -> to_int32 z = z.
Proof. intros H. unfold to_int32. rewrite Z.mod_small; lia. Qed.
Lemma to_size_t_id z : 0 <= z < 2 ^ 64 -> to_size_t z = z.
Proof. intros H. unfold to_size_t. apply Z.mod_small; lia. Qed.

Lemma index_size0_acc shape : forall a, Forall (fun s => 0 < s) shape -> 0 < a -> a * size_of shape < 2 ^ 31 ->
  fold_left (fun acc s => to_int32 (to_size_t acc * s)) shape a = a * size_of shape.
Proof.
  induction shape as [|s ss IH]; intros a HP Ha Hs; simpl in *; [lia|].
  inversion HP as [|? ? Hs0 HPs]; subst.
  assert (0 < size_of ss). { clear -HPs. induction HPs; simpl; nia. }
  assert (a < 2 ^ 31) by nia. assert (a * s < 2 ^ 31) by nia.
  rewrite to_size_t_id by lia. rewrite to_int32_id by nia. rewrite IH; auto; nia.
Qed.

Lemma index_size0_spec shape : Forall (fun s => 0 < s) shape -> size_of shape < 2 ^ 31 -> index_size0 shape = size_of shape.
Proof.
  intros HP Hs. unfold index_size0. rewrite index_size0_acc by (auto; lia).
  assert (0 < size_of shape). { clear -HP. induction HP; simpl; nia. }
  rewrite Z.mul_1_l. apply to_size_t_id. lia.
Qed.

Lemma size_pos_all shape : valid_shape shape -> 0 < size_of shape -> Forall (fun s => 0 < s) shape.
Proof.
  induction 1 as [|s ss Hs HV IH]; simpl; intros H; constructor.
  - destruct (Z.eq_dec s 0); [subst; lia|lia].
  - apply IH. pose proof (size_nonneg ss HV). destruct (Z.eq_dec (size_of ss) 0) as [E|]; [rewrite E in H; lia|lia].
Qed.

Lemma get_multi_index_spec shape k :
  valid_shape shape -> size_of shape < 2 ^ 31 -> 0 <= k < size_of shape ->
  in_shape shape (get_multi_index shape k) /\ row_major shape (get_multi_index shape k) = k.
Proof.
  intros HV Hs Hk. assert (HP := size_pos_all shape HV ltac:(lia)).
  unfold get_multi_index. rewrite index_size0_spec by auto. apply multi_loop_spec; auto.
Qed.

Lemma get_multi_index_inverse shape idx :
  in_shape shape idx -> size_of shape < 2 ^ 31 -> get_multi_index shape (row_major shape idx) = idx.
Proof.
  intros H Hs. assert (HP : Forall (fun s => 0 < s) shape).
  { clear -H. induction H; constructor; auto; lia. }
  unfold get_multi_index. rewrite index_size0_spec by auto. apply multi_loop_row_major; auto.
Qed.

(** Checked access *)
Lemma get_index_in_range shape idx : in_shape shape idx -> get_index shape idx = Some (row_major shape idx).
Proof.
  intros H. unfold get_index. pose proof (in_shape_length _ _ H) as L.
  rewrite (proj2 (Nat.eqb_eq _ _) (eq_sym L)); simpl.
  assert (E : existsb (fun '(i, s) => s <? i) (combine idx shape) = false).
  { clear -H. induction H as [|s i ss is Hx HF IH]; simpl; auto. rewrite IH.
    destruct (Z.ltb_spec s i); auto; lia. }
  rewrite E, get_index_static_spec; auto.
Qed.

Lemma get_index_reject_length shape idx : length idx <> length shape -> get_index shape idx = None.
Proof. intros H. unfold get_index. apply Nat.eqb_neq in H. rewrite H. reflexivity. Qed.

Lemma get_index_reject_above shape idx :
  length idx = length shape -> (exists n, nth n idx 0 > nth n shape 0 /\ (n < length shape)%nat) ->
  get_index shape idx = None.
Proof.
  intros L (n & Hn & Hl). unfold get_index. rewrite (proj2 (Nat.eqb_eq _ _) L); simpl.
  assert (E : existsb (fun '(i, s) => s <? i) (combine idx shape) = true).
  { apply existsb_exists. exists (nth n idx 0, nth n shape 0). split.
    - rewrite <- combine_nth by auto. apply nth_In. rewrite combine_length. lia.
    - apply Z.ltb_lt. lia. }
  rewrite E. reflexivity.
Qed.

Lemma nth_error_repeat_some {T} (x : T) n k : (k < n)%nat -> nth_error (repeat x n) k = Some x.
Proof. revert k; induction n; intros [|k] H; simpl; auto; try lia. apply IHn. lia. Qed.

(** get / set laws *)
Definition well_formed {T} (a : marray T) : Prop :=
  valid_shape (ma_shape a) /\ ma_size a = size_of (ma_shape a) /\ length (ma_data a) = Z.to_nat (ma_size a).

Lemma ma_make_wf {T} (z : T) shape : valid_shape shape -> well_formed (ma_make z shape).
Proof. intros H. unfold well_formed, ma_make; simpl. rewrite prodz_size, repeat_length. auto. Qed.

Lemma upd_length {T} (l : list T) n x : length (upd l n x) = length l.
Proof. revert n; induction l; intros [|n]; simpl; auto. Qed.
Lemma upd_same {T} (l : list T) n x : (n < length l)%nat -> nth_error (upd l n x) n = Some x.
Proof. revert n; induction l; intros [|n] H; simpl in *; auto; try lia. apply IHl; lia. Qed.
Lemma upd_other {T} (l : list T) n m x : n <> m -> nth_error (upd l n x) m = nth_error l m.
Proof. revert n m; induction l; intros [|n] [|m] H; simpl; auto; try congruence. Qed.

Lemma ma_get_defined {T} (a : marray T) i : well_formed a -> (0 <= i < ma_size a <-> exists x, ma_get a i = Some x).
Proof.
  intros (HV & Hs & Hl). unfold ma_get. destruct (Z.ltb_spec i 0); simpl.
  - split; [lia|intros (x & E); discriminate].
  - destruct (Z.leb_spec (ma_size a) i).
    + split; [lia|intros (x & E); discriminate].
    + split; [|lia]. intros _. destruct (nth_error (ma_data a) (Z.to_nat i)) eqn:E; eauto.
      apply nth_error_None in E. lia.
Qed.

Lemma ma_set_get {T} (a b : marray T) i x : well_formed a -> ma_set a i x = Some b ->
  well_formed b /\ ma_get b i = Some x /\ (forall j, j <> i -> ma_get b j = ma_get a j).
Proof.
  intros (HV & Hs & Hl) E. unfold ma_set in E.
  destruct (Z.ltb_spec i 0); simpl in E; [discriminate|].
  destruct (Z.leb_spec (ma_size a) i); simpl in E; [discriminate|]. injection E as <-.
  split; [unfold well_formed; simpl; rewrite upd_length; auto|]. split.
  - unfold ma_get; simpl. destruct (Z.ltb_spec i 0); [lia|]. destruct (Z.leb_spec (ma_size a) i); [lia|]. simpl.
    apply upd_same. lia.
  - intros j Hj. unfold ma_get; simpl. destruct (Z.ltb_spec j 0); auto. destruct (Z.leb_spec (ma_size a) j); auto. simpl.
    apply upd_other. lia.
Qed.

(** Refutations *)
Lemma get_index_off_by_one_refuted :
  exists shape idx, valid_shape shape /\ ~ in_shape shape idx /\ exists k, get_index shape idx = Some k /\ 0 <= k < size_of shape.
Proof.
  exists [2; 3], [0; 3]. split; [repeat constructor; lia|]. split.
  - intros H. inversion H; subst. inversion H5; subst. lia.
  - exists 3. split; [reflexivity|]. simpl; lia.
Qed.

Lemma get_multi_index_overflow_refuted :
  exists shape k, valid_shape shape /\ 0 <= k < size_of shape /\ row_major shape (get_multi_index shape k) <> k.
Proof.
  exists [2 ^ 31], 5. split; [repeat constructor; lia|]. split; [simpl; lia|]. vm_compute. discriminate.
Qed.
