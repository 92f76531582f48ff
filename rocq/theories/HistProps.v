(** Properties C12-C17: result arrays, histograms, thread-local accumulation. *)
From Coq Require Import Permutation.
From Verif Require Import RBase HistModel HistSpec MArrayProofs ParProofs HistProofs HistProofs2.
Open Scope Z_scope.

(** ** C12 *)
(** The checked linear index of a valid multi-index is its row-major offset, inside [0, size). *)
Theorem C12_index_row_major (shape idx : list Z) :
  in_shape shape idx ->
  get_index shape idx = Some (row_major shape idx) /\ 0 <= row_major shape idx < size_of shape /\
  ma_size (ma_make 0 shape) = size_of shape.
Proof.
  intros H. split; [apply get_index_in_range; auto|]. split; [apply row_major_range; auto|].
  simpl. apply prodz_size.
Qed.
Print Assumptions C12_index_row_major.

Theorem C12_index_order (shape i j : list Z) :
  in_shape shape i -> in_shape shape j ->
  (row_major shape i = row_major shape j <-> i = j) /\ (lex i j <-> row_major shape i < row_major shape j).
Proof.
  intros Hi Hj. split.
  - split; [apply row_major_inj; auto|congruence].
  - symmetry. apply row_major_order; auto.
Qed.
Print Assumptions C12_index_order.

(** Every offset is reached, and getMultiIndex inverts the map, as long as the array has fewer than 2^31 elements. *)
Theorem C12_multi_index_inverse (shape : list Z) :
  valid_shape shape -> size_of shape < 2 ^ 31 ->
  (forall k, 0 <= k < size_of shape ->
     in_shape shape (get_multi_index shape k) /\ row_major shape (get_multi_index shape k) = k) /\
  (forall idx, in_shape shape idx -> get_multi_index shape (row_major shape idx) = idx).
Proof.
  intros HV HS. split.
  - intros k Hk. apply get_multi_index_spec; auto.
  - intros idx HI. apply get_multi_index_inverse; auto.
Qed.
Print Assumptions C12_multi_index_inverse.

Theorem C12_multi_index_overflow_refuted :
  exists shape k, valid_shape shape /\ 0 <= k < size_of shape /\ row_major shape (get_multi_index shape k) <> k.
Proof. exact get_multi_index_overflow_refuted. Qed.
Print Assumptions C12_multi_index_overflow_refuted.

(** Which multi-indices are rejected: wrong rank, or some component strictly above the extent ... *)
Theorem C12_rejects (shape idx : list Z) :
  get_index shape idx = None <->
  length idx <> length shape \/
  (exists n, (n < length shape)%nat /\ nth n idx 0 > nth n shape 0).
Proof.
  split.
  - unfold get_index. destruct (Nat.eqb_spec (length idx) (length shape)) as [L|L]; [|auto]. simpl.
    destruct (existsb _ _) eqn:E; [|discriminate]. intros _. right.
    apply existsb_exists in E as ((i & s) & HIn & Hlt). apply Z.ltb_lt in Hlt.
    apply (In_nth _ _ (0, 0)) in HIn as (n & Hn & En). rewrite combine_length in Hn.
    rewrite combine_nth in En by auto. injection En as <- <-. exists n. split; lia.
  - intros [L|(n & Hn & Hgt)]; [apply get_index_reject_length; auto|].
    destruct (Nat.eq_dec (length idx) (length shape)); [|apply get_index_reject_length; auto].
    apply get_index_reject_above; eauto.
Qed.
Print Assumptions C12_rejects.
(** ... so an index equal to the extent is accepted and aliases another element. *)
Theorem C12_out_of_range_refuted :
  exists shape idx, valid_shape shape /\ ~ in_shape shape idx /\
    exists k, get_index shape idx = Some k /\ 0 <= k < size_of shape.
Proof. exact get_index_off_by_one_refuted. Qed.
Print Assumptions C12_out_of_range_refuted.

(** Element access: reads and writes are checked, a write changes exactly one element. *)
Theorem C12_access {T} (zero : T) (shape : list Z) :
  valid_shape shape ->
  well_formed (ma_make zero shape) /\
  (forall i, 0 <= i < size_of shape -> ma_get (ma_make zero shape) i = Some zero) /\
  (forall a : marray T, well_formed a ->
     (forall i, (0 <= i < ma_size a <-> exists x, ma_get a i = Some x)) /\
     (forall i x b, ma_set a i x = Some b ->
        well_formed b /\ ma_get b i = Some x /\ forall j, j <> i -> ma_get b j = ma_get a j)).
Proof.
  intros HV. pose proof (ma_make_wf zero shape HV) as W. split; auto. split.
  - intros i Hi. unfold ma_get, ma_make; simpl. rewrite prodz_size.
    destruct (Z.ltb_spec i 0); [lia|]. destruct (Z.leb_spec (size_of shape) i); [lia|]. simpl.
    apply nth_error_repeat_some. lia.
  - intros a Wa. split; [intros; apply ma_get_defined; auto|]. intros i x b E. eapply ma_set_get; eauto.
Qed.
Print Assumptions C12_access.

Example C12_example : in_shape [2; 3; 4] [1; 2; 3] /\ valid_shape [2; 3; 4] /\ size_of [2; 3; 4] < 2 ^ 31 /\
  get_index [2; 3; 4] [1; 2; 3] = Some 23 /\ get_multi_index [2; 3; 4] 23 = [1; 2; 3].
Proof.
  split; [repeat constructor; lia|]. split; [repeat constructor; lia|]. split; [simpl; lia|].
  split; reflexivity.
Qed.

(** ** C13 *)
Theorem C13_in_range (a : axis) (v : R) :
  valid_axis a -> (ax_min a <= v < ax_max a)%R ->
  0 <= axis_bin a v < ax_n a /\
  (interval_lo a (axis_bin a v) <= v < interval_lo a (axis_bin a v + 1))%R /\
  forall j, (interval_lo a j <= v < interval_lo a (j + 1))%R -> j = axis_bin a v.
Proof.
  intros HA HV. destruct (axis_bin_in a v HA HV) as [H1 H2]. split; auto. split; auto.
  intros j Hj. eapply interval_unique; eauto.
Qed.
Print Assumptions C13_in_range.

Theorem C13_out_of_range {T} (op : T -> T -> T) (h : hist T) (a : axis) (v : R) (w : T) :
  h_axes h = [a] -> ~ (ax_min a <= v < ax_max a)%R -> hist_add op h [v] w = Some h.
Proof.
  intros HA HV. unfold hist_add, hist_bin. rewrite HA. simpl. rewrite (axis_bin_out a v HV). simpl.
  reflexivity.
Qed.
Print Assumptions C13_out_of_range.

Theorem C13_edges (a : axis) :
  valid_axis a ->
  length (bin_edges a) = S (Z.to_nat (ax_n a)) /\ length (bin_centers a) = Z.to_nat (ax_n a) /\
  interval_lo a 0 = ax_min a /\ interval_lo a (ax_n a) = ax_max a /\
  (forall i, 0 <= i <= ax_n a -> nth (Z.to_nat i) (bin_edges a) 0%R = interval_lo a i) /\
  (forall i, 0 <= i < ax_n a -> nth (Z.to_nat i) (bin_centers a) 0%R = ((interval_lo a i + interval_lo a (i + 1)) / 2)%R).
Proof.
  intros HA. split; [apply bin_edges_length; destruct HA; lia|]. split; [apply bin_centers_length|].
  split; [apply interval_first|]. split; [apply interval_last; auto|].
  split; [apply bin_edges_nth|]. apply bin_centers_nth.
Qed.
Print Assumptions C13_edges.

(** Multi-dimensional bins: the cell found is the unique one containing the sample. *)
Theorem C13_cells (axes : list axis) (vals : list R) :
  Forall valid_axis axes -> length vals = length axes ->
  (in_range axes vals -> exists idx, axes_bins axes vals = Some idx /\ in_cell axes vals idx /\
     forall idx', in_cell axes vals idx' -> idx' = idx) /\
  (~ in_range axes vals -> axes_bins axes vals = None).
Proof.
  intros HA HL. pose proof (axes_bins_spec axes vals HA HL) as S. destruct (axes_bins axes vals) as [idx|] eqn:E.
  - split.
    + intros _. exists idx. split; auto. split; auto. intros. eapply in_cell_unique; eauto.
    + intros H. exfalso. apply H. eapply in_cell_in_range; eauto.
  - split; [contradiction|auto].
Qed.
Print Assumptions C13_cells.

Definition ex_ax1 : axis := Axis 4 0 2.
Definition ex_ax2 : axis := Axis 2 (-1) 1.
Example ex_valid_axes : valid_axes [ex_ax1; ex_ax2].
Proof.
  split; [|vm_compute; reflexivity].
  repeat constructor; simpl; try lra; try (unfold OVERFLOW_BIN; lia).
Qed.
Example C13_example : in_cell [ex_ax1; ex_ax2] [(3/4)%R; 0%R] [1; 1].
Proof. repeat constructor; simpl; try lia; unfold interval_lo; simpl; lra. Qed.
Example C13_axis_example : valid_axis ex_ax1 /\ (ax_min ex_ax1 <= 3/4 < ax_max ex_ax1)%R.
Proof. split; [apply (Forall_inv (proj1 ex_valid_axes))|simpl; lra]. Qed.
Example C13_out_example : ~ (ax_min ex_ax1 <= 2 < ax_max ex_ax1)%R.
Proof. simpl. lra. Qed.

(** ** C14 *)
Theorem C14_counts {T} (zero : T) (op : T -> T -> T) (axes : list axis) (samples : list (list R * T)) :
  sum_laws zero op -> valid_axes axes -> (forall s, In s samples -> length (fst s) = length axes) ->
  exists h, hist_add_all op samples (hist_make zero axes) = Some h /\
    forall idx, in_shape (map ax_n axes) idx ->
      ma_get (h_counts h) (row_major (map ax_n axes) idx) = Some (sum_of zero op (weights_in axes idx samples)).
Proof. intros L V A. exact (counts_spec zero op axes V samples A). Qed.
Print Assumptions C14_counts.

(** weights_in selects exactly the samples of the cell. *)
Theorem C14_weights_in {T} (axes : list axis) (idx : list Z) (samples : list (list R * T)) (s : list R * T) :
  in_shape (map ax_n axes) idx ->
  (In s (filter (fun s => in_cellb axes idx (fst s)) samples) <-> In s samples /\ in_cell axes (fst s) idx).
Proof. intros HS. rewrite filter_In, in_cellb_iff by auto. tauto. Qed.
Print Assumptions C14_weights_in.

Theorem C14_total {T} (zero : T) (op : T -> T -> T) (axes : list axis) (samples : list (list R * T)) :
  sum_laws zero op -> valid_axes axes -> (forall s, In s samples -> length (fst s) = length axes) ->
  exists h, hist_add_all op samples (hist_make zero axes) = Some h /\
    sum_of zero op (ma_data (h_counts h)) =
    sum_of zero op (map snd (filter (fun s => in_rangeb axes (fst s)) samples)) /\
    forall s, In s (filter (fun s => in_rangeb axes (fst s)) samples) <-> In s samples /\ in_range axes (fst s).
Proof.
  intros L V A. destruct (hist_add_all_total zero op axes V L samples _ (good_make zero axes V) A) as (h & E & _ & D).
  exists h. split; auto. split.
  - unfold sum_of. unfold total, data, weights_in_range in D. rewrite D. simpl.
    fold (total zero op (repeat zero (Z.to_nat (prodz (map ax_n axes))))).
    rewrite (total_repeat zero op L). apply L.
  - intros s. rewrite filter_In, in_rangeb_iff. tauto.
Qed.
Print Assumptions C14_total.

Theorem C14_wrong_arity {T} (op : T -> T -> T) (h : hist T) (vals : list R) (w : T) :
  length vals <> length (h_axes h) -> hist_add op h vals w = None.
Proof.
  intros H. unfold hist_add, hist_bin. apply Nat.eqb_neq in H. rewrite H. reflexivity.
Qed.
Print Assumptions C14_wrong_arity.

(** The number types used by freud: unsigned counters wrap modulo 2^32, weights are reals. *)
Theorem C14_number_types : sum_laws 0%R Rplus /\ sum_laws (u32 0) u32_add /\
  (forall l, u32_val (sum_of (u32 0) u32_add l) = fold_right Z.add 0 (map u32_val l) mod 2 ^ 32).
Proof. split; [exact R_laws|]. split; [exact u32_laws|exact u32_sum_mod]. Qed.
Print Assumptions C14_number_types.

Definition ex_samples : list (list R * nat) := [([3/4; 0], 2%nat); ([3; 0], 1%nat); ([5/8; 1/2], 5%nat)]%R.
Example C14_example : (forall s, In s ex_samples -> length (fst s) = length [ex_ax1; ex_ax2]) /\
  weights_in [ex_ax1; ex_ax2] [1; 1] ex_samples = [2%nat; 5%nat].
Proof.
  split; [intros s [<-|[<-|[<-|[]]]]; reflexivity|].
  assert (HS : in_shape (map ax_n [ex_ax1; ex_ax2]) [1; 1]) by (repeat constructor; lia).
  unfold weights_in, ex_samples. cbn [filter fst].
  assert (T : in_cellb [ex_ax1; ex_ax2] [1; 1] [(3/4)%R; 0%R] = true).
  { apply in_cellb_iff; auto. exact C13_example. }
  assert (F : in_cellb [ex_ax1; ex_ax2] [1; 1] [3%R; 0%R] = false).
  { apply not_true_iff_false. rewrite in_cellb_iff by auto. intros H. inversion H; subst.
    unfold interval_lo in *; simpl in *; lra. }
  assert (T2 : in_cellb [ex_ax1; ex_ax2] [1; 1] [(5/8)%R; (1/2)%R] = true).
  { apply in_cellb_iff; auto. repeat constructor; simpl; try lia; unfold interval_lo; simpl; lra. }
  rewrite T, F, T2. reflexivity.
Qed.

(** ** C15 *)
(** Whatever the chunking, thread assignment and interleaving of the accumulation loop ([ev]) and of the
    reduction loop ([ev2]), and whatever the result array held before, the reduced array is the array of the
    sequential loop. *)
Theorem C15_schedule_independent {T} (zero : T) (op : T -> T -> T) (axes : list axis) (n : nat)
    (samples : nat -> list (list R * T)) (ev ev2 : list (nat * nat)) (r : marray T) :
  sum_laws zero op -> valid_axes axes -> (forall i s, In s (samples i) -> length (fst s) = length axes) ->
  execution 0 n ev -> execution 0 (Z.to_nat (size_of (map ax_n axes))) ev2 ->
  well_formed r -> ma_shape r = map ax_n axes ->
  exists ls c h, collect (accumulate zero op axes samples ev []) = Some ls /\
    tlh_reduce_into zero op ls ev2 r = Some c /\
    hist_add_all op (flat_map samples (range 0 n)) (hist_make zero axes) = Some h /\
    c = h_counts h.
Proof. intros L V A E E2 W S. exact (parallel_counts zero op axes V L n samples ev ev2 r A E E2 W S). Qed.
Print Assumptions C15_schedule_independent.

(** Every index is processed exactly once. *)
Theorem C15_each_index_once (b e : nat) (ev : list (nat * nat)) (i : nat) :
  execution b e ev ->
  count_occ Nat.eq_dec (map snd ev) i = if (b <=? i)%nat && (i <? e)%nat then 1%nat else 0%nat.
Proof.
  intros H. apply execution_perm in H. rewrite (Permutation_count_occ Nat.eq_dec) in H. rewrite H.
  unfold range. destruct (Nat.leb_spec b i); simpl.
  - destruct (Nat.ltb_spec i e).
    + apply NoDup_count_occ'; [apply seq_NoDup|apply in_seq; lia].
    + apply count_occ_not_In. rewrite in_seq. lia.
  - apply count_occ_not_In. rewrite in_seq. lia.
Qed.
Print Assumptions C15_each_index_once.

Example C15_example : execution 0 5 [(1, 3); (0, 0); (1, 4); (0, 1); (2, 2)]%nat.
Proof.
  exists [(0, 2); (2, 3); (3, 5)]%nat. split.
  - apply (split_node 0 2 5 [(0, 2)] [(2, 3); (3, 5)])%nat; try lia.
    + apply split_leaf; lia.
    + apply (split_node 2 3 5 [(2, 3)] [(3, 5)])%nat; try lia; apply split_leaf; lia.
  - simpl. apply NoDup_Permutation; [repeat constructor; simpl; lia..|intros i; simpl; lia].
Qed.

(** ** C16 *)
Theorem C16_reduce_into {T} (zero : T) (op : T -> T -> T) (ls : list (marray T)) (ev : list (nat * nat)) (r : marray T) :
  sum_laws zero op -> well_formed r -> Forall (fun a => well_formed a /\ ma_size a = ma_size r) ls ->
  execution 0 (Z.to_nat (ma_size r)) ev ->
  exists r', ts_reduce_into zero op ls ev r = Some r' /\ well_formed r' /\ ma_shape r' = ma_shape r /\
    forall k, (k < Z.to_nat (ma_size r))%nat ->
      nth k (ma_data r') zero =
      match ls with
      | [] => zero
      | _ => op (nth k (ma_data r) zero) (sum_of zero op (map (fun a => nth k (ma_data a) zero) ls))
      end.
Proof. intros L W F E. exact (ts_reduce_spec zero op L ls ev r W F E). Qed.
Print Assumptions C16_reduce_into.

(** On a zeroed result it is the plain sum, for any number of thread-local arrays. *)
Theorem C16_reduce_into_zeroed {T} (zero : T) (op : T -> T -> T) (ls : list (marray T)) (ev : list (nat * nat)) shape :
  sum_laws zero op -> valid_shape shape ->
  Forall (fun a => well_formed a /\ ma_size a = size_of shape) ls ->
  execution 0 (Z.to_nat (size_of shape)) ev ->
  exists r', ts_reduce_into zero op ls ev (ma_make zero shape) = Some r' /\ ma_shape r' = shape /\
    forall k, (k < Z.to_nat (size_of shape))%nat ->
      nth k (ma_data r') zero = sum_of zero op (map (fun a => nth k (ma_data a) zero) ls).
Proof.
  intros L V F E.
  destruct (ts_reduce_spec zero op L ls ev (ma_make zero shape) (ma_make_wf zero shape V)) as (r' & E' & W & S & D).
  - simpl. rewrite prodz_size. auto.
  - simpl. rewrite prodz_size. auto.
  - exists r'. split; auto. split; auto. intros k Hk. rewrite D by (simpl; rewrite prodz_size; auto).
    destruct ls; [reflexivity|]. simpl ma_data. rewrite nth_repeat. apply L.
Qed.
Print Assumptions C16_reduce_into_zeroed.

(** The documented behaviour ("write result") fails: the previous content is kept. *)
Theorem C16_overwrites_refuted :
  exists (ls : list (marray R)) ev r r',
    well_formed r /\ Forall (fun a => well_formed a /\ ma_size a = ma_size r) ls /\
    execution 0 (Z.to_nat (ma_size r)) ev /\ ts_reduce_into 0%R Rplus ls ev r = Some r' /\
    nth 0 (ma_data r') 0%R <> sum_of 0%R Rplus (map (fun a => nth 0 (ma_data a) 0%R) ls).
Proof.
  exists [MArray [1] 1 [2%R]], [(0, 0)%nat], (MArray [1] 1 [3%R]), (MArray [1] 1 [(3 + 2)%R]).
  assert (W : forall x : R, well_formed (MArray [1] 1 [x])).
  { intros x. split; [repeat constructor; lia|]. split; reflexivity. }
  split; [apply W|]. split; [constructor; [split; [apply W|reflexivity]|constructor]|].
  split; [exact (sequential_execution 0 1 0)|]. split; [reflexivity|].
  unfold sum_of. simpl. lra.
Qed.
Print Assumptions C16_overwrites_refuted.

Example C16_example : exists ls : list (marray R), length ls = 2%nat /\
  Forall (fun a => well_formed a /\ ma_size a = size_of [2; 2]) ls /\ valid_shape [2; 2].
Proof.
  exists [MArray [2; 2] 4 [1%R; 2%R; 3%R; 4%R]; MArray [2; 2] 4 [0%R; 1%R; 0%R; 1%R]]. split; auto.
  split; [|repeat constructor; lia].
  assert (W : forall x y z w : R, well_formed (MArray [2; 2] 4 [x; y; z; w])).
  { intros. split; [repeat constructor; lia|]. split; reflexivity. }
  constructor; [split; [apply W|reflexivity]|]. constructor; [split; [apply W|reflexivity]|constructor].
Qed.

(** ** C17 *)
(** After any history of compute(reset) calls and property reads, a read returns the sums over the frames since
    the last reset, their number, and the last frame's normalisation data. *)
Theorem C17_history {T F} (zero : T) (op : T -> T -> T) (axes : list axis) (h : list (hop T F)) (ev : list (nat * nat)) :
  sum_laws zero op -> valid_axes axes -> Forall (valid_hop axes) h ->
  execution 0 (Z.to_nat (size_of (map ax_n axes))) ev ->
  exists s, run_history zero op (bhc_make zero axes) (h ++ [Read ev]) = Some s /\
    (forall idx, in_shape (map ax_n axes) idx ->
       ma_get (h_counts (bhc_hist s)) (row_major (map ax_n axes) idx)
       = Some (sum_of zero op (weights_in axes idx (flat_map frame_samples (frames_since h []))))) /\
    bhc_frames s = length (frames_since h []) /\
    (forall l f, frames_since h [] = l ++ [f] -> bhc_last s = Some (fr_data f)).
Proof.
  intros L V H E. destruct (history_spec zero op axes V L h ev H E) as (s & R & C & _ & N & D).
  exists s. split; auto. split; auto. split; auto. intros l f EF. rewrite D.
  eapply last_data_frames; [|exact EF]. intros [|]; discriminate.
Qed.
Print Assumptions C17_history.

(** Nothing else is observable: histories with the same frames since the last reset (whatever the earlier
    frames, the interleaved reads and the schedules of the reductions) give the same observation. *)
Theorem C17_only_frames_since_reset {T F} (zero : T) (op : T -> T -> T) (axes : list axis)
    (h1 h2 : list (hop T F)) (ev1 ev2 : list (nat * nat)) :
  sum_laws zero op -> valid_axes axes -> Forall (valid_hop axes) h1 -> Forall (valid_hop axes) h2 ->
  execution 0 (Z.to_nat (size_of (map ax_n axes))) ev1 -> execution 0 (Z.to_nat (size_of (map ax_n axes))) ev2 ->
  frames_since h1 [] = frames_since h2 [] ->
  option_map observe (run_history zero op (bhc_make zero axes) (h1 ++ [Read ev1])) =
  option_map observe (run_history zero op (bhc_make zero axes) (h2 ++ [Read ev2])).
Proof. intros L V. exact (history_determined zero op axes h1 h2 ev1 ev2 V L). Qed.
Print Assumptions C17_only_frames_since_reset.

(** frames_since is what it says. *)
Theorem C17_frames_since {T F} (h1 h2 : list (hop T F)) (f : frame T F) :
  frames_since (h1 ++ Compute true f :: h2) [] = frames_since (Compute true f :: h2) [] /\
  (forall ev, frames_since (h1 ++ Read ev :: h2) [] = frames_since (h1 ++ h2) []) /\
  frames_since (h1 ++ [Compute false f]) [] = frames_since h1 [] ++ [f].
Proof.
  assert (A : forall h acc h', frames_since (h ++ h') acc = @frames_since T F h' (frames_since h acc)).
  { induction h as [|[[|] g|e] h IH]; intros acc h'; simpl; auto. }
  split; [rewrite A; reflexivity|]. split; [intros ev; rewrite !A; reflexivity|]. rewrite A. reflexivity.
Qed.
Print Assumptions C17_frames_since.

Definition ex_frame (w : nat) : frame nat nat :=
  Frame 2 (fun i => if Nat.eqb i 0 then [([3/4; 0]%R, w)] else []) [(1, 1); (0, 0)]%nat w.
Example C17_example : Forall (valid_hop [ex_ax1; ex_ax2])
    [Compute true (ex_frame 1); Read (map (fun i => (0%nat, i)) (range 0 8)); Compute false (ex_frame 2)].
Proof.
  assert (VF : forall w, valid_frame [ex_ax1; ex_ax2] (ex_frame w)).
  { intros w. split.
    - exists [(0, 2)]%nat. split; [apply split_leaf; lia|]. simpl. apply perm_swap.
    - intros [|i] s H; simpl in H; [destruct H as [<-|[]]; reflexivity|contradiction]. }
  constructor; [apply VF|]. constructor; [exact (sequential_execution 0 8 0)|]. constructor; [apply VF|constructor].
Qed.
