(** Properties C22 (lists and filters), C25, C37, C38: bond vectors, reuse of lists, SANN and RAD filters. *)
From Coq Require Import Permutation Sorting.Sorted.
From Verif Require Import BoxModel BoxProofs BoxProps FilterModel NListSpec ParProofs NListProofs NListProofs2 NListProps FilterProofs BoxSpec.
Open Scope nat_scope.

(** Sort keys: what the distance order can see of a bond. *)
Definition key (x : bond) : nat * R * nat * R := (bq x, bd x, bp x, bw x).
Lemma less_distance_total x y : less_as_distance x y = false -> less_as_distance y x = false -> key x = key y.
Proof.
  unfold less_as_distance, key.
  destruct (Nat.eqb_spec (bq x) (bq y)), (Nat.eqb_spec (bq y) (bq x)); cbn [negb]; try lia;
    [|intros A B; apply Nat.ltb_ge in A, B; lia].
  destruct (Reqb_spec (bd x) (bd y)), (Reqb_spec (bd y) (bd x)); cbn [negb]; try (exfalso; lra);
    [|intros A B; apply Rltb_false in A, B; exfalso; lra].
  destruct (Nat.eqb_spec (bp x) (bp y)), (Nat.eqb_spec (bp y) (bp x)); cbn [negb]; try lia;
    [|intros A B; apply Nat.ltb_ge in A, B; lia].
  intros A B; apply Rltb_false in A, B. assert (bw x = bw y) by lra. congruence.
Qed.
Lemma less_distance_key x y x' y' : key x = key x' -> key y = key y' -> less_as_distance x y = less_as_distance x' y'.
Proof. unfold key, less_as_distance. intros H K. injection H as -> -> -> ->. injection K as -> -> -> ->. reflexivity. Qed.

(** Two distance-sorted arrangements of the same bonds agree on all keys. *)
Lemma sorted_keys_unique : forall l l', Permutation (map key l) (map key l') ->
  ForallOrdPairs (fun a b => less_as_distance b a = false) l ->
  ForallOrdPairs (fun a b => less_as_distance b a = false) l' -> map key l = map key l'.
Proof.
  induction l as [|x l IH]; intros [|y l'] HP H H'.
  - reflexivity.
  - apply Permutation_nil in HP. discriminate.
  - symmetry in HP. apply Permutation_nil in HP. discriminate.
  - inversion H as [|? ? F1 F2]; subst. inversion H' as [|? ? G1 G2]; subst. rewrite Forall_forall in F1, G1.
    assert (IX : less_as_distance x x = false).
    { unfold less_as_distance. rewrite !Nat.eqb_refl. destruct (Reqb_spec (bd x) (bd x)); [|congruence]. simpl. apply Rltb_false. lra. }
    assert (EK : key x = key y).
    { apply less_distance_total.
      - assert (I : In (key x) (map key (y :: l'))) by (eapply Permutation_in; [exact HP|left; auto]).
        apply in_map_iff in I as (z & E & [<-|I]).
        + rewrite <- (less_distance_key x x x y eq_refl (eq_sym E)). auto.
        + rewrite <- (less_distance_key z y x y E eq_refl). apply G1. auto.
      - assert (I : In (key y) (map key (x :: l))) by (eapply Permutation_in; [symmetry; exact HP|left; auto]).
        apply in_map_iff in I as (z & E & [<-|I]).
        + rewrite <- (less_distance_key x x y x E eq_refl). auto.
        + rewrite <- (less_distance_key z x y x E eq_refl). apply F1. auto. }
    simpl in *. rewrite EK in *. f_equal. apply IH; auto. apply Permutation_cons_inv in HP. auto.
Qed.
Lemma sort_result_keys l l1 l2 : sort_result less_as_distance l l1 -> sort_result less_as_distance l l2 -> map key l1 = map key l2.
Proof.
  intros [P1 O1] [P2 O2]. apply sorted_keys_unique.
  - apply Permutation_map. rewrite <- P1. exact P2.
  - apply pairs_iff. exact O1.
  - apply pairs_iff. exact O2.
Qed.

(** ** C37 *)
(** What SANN is supposed to pick out of the distances d_0 <= d_1 <= ... of the candidates: a number m >= 3 with
    (d_0 + ... + d_(m-1)) / (m - 2) <= d_m. *)
Definition self_consistent (l : list bond) (m : nat) : Prop :=
  3 <= m < length l /\ (fold_right Rplus 0 (map bd (firstn m l)) / (INR m - 2) <= bd (nth m l bond0))%R.

(** For every possible result (every schedule, every choice of the sorts among ties): the bonds of query point i
    in the filtered list are the m nearest ones, where m is the smallest self-consistent number, or all of them
    when there is none; the filtered list is sorted by distance. *)
Theorem C37_sann_shell (allow : bool) (nl nl' : nlist) : reach nl -> sann_compute allow nl (Filtered nl') ->
  (forall i, exists L m, sort_result less_as_distance (of_point i (nl_bonds nl)) L /\
     Permutation (of_point i (nl_bonds nl')) (firstn m L) /\
     ((m < length L /\ self_consistent L m /\ forall m', self_consistent L m' -> m <= m') \/
      (m = length L /\ forall m', ~ self_consistent L m'))) /\
  (forall j k, j < k < length (nl_bonds nl') -> less_as_distance (nth k (nl_bonds nl') bond0) (nth j (nl_bonds nl') bond0) = false).
Proof.
  intros R H. destruct (filtered_of_point sann_shell allow nl nl' R sann_shell_q H) as (L & HL & HP & HO & _).
  split; auto. intros i. exists (L i). pose proof (HP i) as HPi. destruct (Nat.ltb_spec i (nl_nq nl)) as [Hi|Hi].
  - destruct (sann_shell_spec i (L i)) as (m & Hm & E & HA & HB). exists m. split; auto. rewrite E in HPi. simpl in HPi. split.
    + rewrite HPi. replace (map (set_q i) (firstn m (L i))) with (firstn m (L i)); auto.
      rewrite <- (map_id (firstn m (L i))) at 1. apply map_ext_in. intros x Hx.
      assert (In x (L i)) by (rewrite <- (firstn_skipn m (L i)); apply in_or_app; auto).
      assert (I : In x (of_point i (nl_bonds nl))) by (eapply Permutation_in; [symmetry; apply HL|auto]).
      apply filter_In in I as [_ Q]. apply Nat.eqb_eq in Q. unfold set_q. destruct x; simpl in *; subst; reflexivity.
    + destruct (Nat.eq_dec m (length (L i))) as [->|N].
      * right. split; auto. intros m' Hm'. specialize (HB m' Hm'). destruct Hm' as [[_ X] _]. lia.
      * left. split; [lia|]. split; [apply HA; lia|]. exact HB.
  - assert (EO : of_point i (nl_bonds nl) = []).
    { destruct (of_point i (nl_bonds nl)) as [|x l] eqn:E; auto. exfalso. assert (I : In x (of_point i (nl_bonds nl))) by (rewrite E; left; auto).
      apply filter_In in I as [I Q]. apply Nat.eqb_eq in Q. destruct (C19_reachable_valid nl R) as [_ V]. specialize (V x I). lia. }
    assert (EL : L i = []). { specialize (HL i). rewrite EO in HL. destruct HL as [HL _]. apply Permutation_nil in HL. auto. }
    exists 0. split; auto. split; auto. right. rewrite EL. split; auto. intros m' [[A B] _]. simpl in B. lia.
Qed.
Print Assumptions C37_sann_shell.

(** An exception is raised exactly when incomplete shells are not allowed and some query point has none. *)
Theorem C37_sann_raises (allow : bool) (nl : nlist) (res : outcome) : reach nl -> sann_compute allow nl res ->
  exists L, (forall i, sort_result less_as_distance (of_point i (nl_bonds nl)) (L i)) /\
    (res = Raised <-> allow = false /\ exists i, i < nl_nq nl /\ forall m, ~ self_consistent (L i) m).
Proof.
  intros R H. destruct (filter_result sann_shell allow nl res R H) as (L & HL & HR). exists L. split; auto.
  assert (U : forall i, snd (sann_shell i (L i)) = true <-> forall m, ~ self_consistent (L i) m).
  { intros i. destruct (sann_shell_spec i (L i)) as (m & Hm & E & HA & HB). rewrite E. simpl. rewrite Nat.eqb_eq. split.
    - intros -> m' Hm'. pose proof (HB m' Hm'). destruct Hm' as [[_ X] _]. lia.
    - intros N. destruct (Nat.eq_dec m (length (L i))); auto. exfalso. apply (N m). apply HA. lia. }
  destruct HR as [((i & Hi & Ui) & A & ->)|(NU & l & _ & _ & [(_ & ->)|(q & p & -> & _)])].
  - split; auto. intros _. split; auto. exists i. split; auto. apply U; auto.
  - split; [discriminate|]. intros (A & i & Hi & N). exfalso. apply NU. split; auto. exists i. split; auto. apply U; auto.
  - split; [discriminate|]. intros (A & i & Hi & N). exfalso. apply NU. split; auto. exists i. split; auto. apply U; auto.
Qed.
Print Assumptions C37_sann_raises.

(** Undefined behaviour occurs only for a list without any bond... *)
Theorem C37_sann_defined (allow : bool) (nl : nlist) : reach nl -> sann_compute allow nl Undefined -> nl_bonds nl = [].
Proof.
  intros R H. destruct (filter_result sann_shell allow nl _ R H) as (L & HL & [(_ & _ & F)|(_ & l & HP & _ & [(-> & _)|(q & p & F & _)])]); try discriminate.
  destruct (nl_bonds nl) as [|x bs] eqn:EB; auto. exfalso.
  destruct (C19_reachable_valid nl R) as [_ V]. specialize (V x). rewrite EB in V. specialize (V (or_introl eq_refl)). destruct V as [V _].
  symmetry in HP. apply Permutation_nil in HP.
  assert (Z : fst (sann_shell (bq x) (L (bq x))) = []).
  { destruct (fst (sann_shell (bq x) (L (bq x)))) as [|y k] eqn:E; auto. exfalso.
    assert (I : In y (flat_map (fun i => fst (sann_shell i (L i))) (range 0 (nl_nq nl)))).
    { apply in_flat_map. exists (bq x). split; [unfold range; apply in_seq; lia|]. rewrite E. left; auto. }
    rewrite HP in I. contradiction. }
  assert (LN : L (bq x) <> []).
  { intros E. specialize (HL (bq x)). rewrite E in HL. destruct HL as [HL _]. symmetry in HL. apply Permutation_nil in HL.
    unfold of_point in HL. simpl in HL. rewrite Nat.eqb_refl in HL. discriminate. }
  destruct (L (bq x)) as [|z Lz]; [congruence|]. revert Z. unfold sann_shell. simpl.
  destruct (sann_first Lz 1 (0 + bd z)) as [[[k1 rest] m] sum]. destruct (sann_more rest m sum). discriminate.
Qed.
Print Assumptions C37_sann_defined.
(** ... and it does occur there (the largest index of an empty bond vector is taken). *)
Theorem C37_sann_empty_refuted : exists nl, reach nl /\ nl_nq nl = 1 /\ sann_compute true nl Undefined.
Proof.
  exists (NL 1 1 [] false [0] [0]). split; [apply (reach_arrays 1 1 [] [] [] None); reflexivity|]. split; auto.
  exists [], (NL 1 1 [] false [0] [0]). split; [exists []; split; [reflexivity|reflexivity]|]. split.
  - exists []. split; [split; [reflexivity|intros; simpl in *; lia]|reflexivity].
  - cbn. exists [(0, 0)]. split; [exact (sequential_execution 0 1 0)|].
    exists [], []. split; [split; [reflexivity|intros; simpl in *; lia]|]. split; [exists []; split; reflexivity|reflexivity].
Qed.
Print Assumptions C37_sann_empty_refuted.

Example C37_ex : self_consistent (map (fun d => Bond 0 0 d 1%R v0) [1; 1; 1; 3; 4]%R) 3 /\
  ~ self_consistent (map (fun d => Bond 0 0 d 1%R v0) [1; 1; 1; 2]%R) 3.
Proof.
  split.
  - split; [simpl; lia|]. simpl. lra.
  - intros [_ H]. simpl in H. lra.
Qed.

(** ** C38 *)
(** The documented criterion: with radii r and distances |v|, k blocks j when
    (r_j/|v_j|)^2 < (r_k/|v_k|)^2 cos(angle). *)
Definition cos_angle (u v : vec3) : R := (dot u v / (norm u * norm v))%R.
Definition blocks (rj rk : R) (vj vk : vec3) : Prop :=
  (rj / norm vj * (rj / norm vj) < rk / norm vk * (rk / norm vk) * cos_angle vj vk)%R.
Lemma rad_blocks_iff rj rk vj vk : (0 < norm vj)%R -> (0 < norm vk)%R ->
  rad_blocks rj rk vj vk (norm vj) (norm vk) = true <-> blocks rj rk vj vk.
Proof.
  intros Hj Hk. unfold rad_blocks, blocks, cos_angle. rewrite Rltb_true. rewrite <- (norm_sq vj), <- (norm_sq vk).
  set (a := norm vj) in *. set (c := norm vk) in *. set (d := dot vj vk).
  set (P := (a * a * a * c * c * c)%R). assert (0 < P)%R by (unfold P; repeat apply Rmult_lt_0_compat; auto).
  assert (E1 : (rj / a * (rj / a) * P = rj * rj * (c * c) * a * c)%R) by (unfold P; field; lra).
  assert (E2 : (rk / c * (rk / c) * (d / (a * c)) * P = rk * rk * d * (a * a))%R) by (unfold P; field; lra).
  rewrite <- E1, <- E2. split; intros X.
  - apply Rmult_lt_reg_r with P; auto.
  - apply Rmult_lt_compat_r; auto.
Qed.

(** The neighbours of query point q, as the filter sees them: vector from the wrapped difference. *)
Definition nb_vec (b : box) (points : list vec3) (q : vec3) (x : bond) : vec3 := wrap b (vsub q (nth (bp x) points v0)).
(** The unfiltered list stores wrapped distances, and no neighbour sits on its query point. *)
Definition consistent (b : box) (points qpoints : list vec3) (bs : list bond) : Prop :=
  forall x, In x bs -> bd x = norm (nb_vec b points (nth (bq x) qpoints v0) x) /\ (0 < bd x)%R.
(** Neighbour number j of the distance-ordered neighbours L is blocked by an earlier one. *)
Definition blocked_at (b : box) (points : list vec3) (radii : list R) (q : vec3) (L : list bond) (j : nat) : Prop :=
  exists k, k < j /\ blocks (nth (bp (nth j L bond0)) radii 0%R) (nth (bp (nth k L bond0)) radii 0%R)
                            (nb_vec b points q (nth j L bond0)) (nb_vec b points q (nth k L bond0)).
Definition rad_bond (b : box) (points : list vec3) (i : nat) (q : vec3) (x : bond) : bond :=
  Bond i (bp x) (bd x) 1%R (nb_vec b points q x).

Lemma rad_blocked_iff b points radii q L j : j < length L ->
  (forall x, In x L -> bd x = norm (nb_vec b points q x) /\ (0 < bd x)%R) ->
  rad_blocked b points radii q (firstn j L) (nth j L bond0) = true <-> blocked_at b points radii q L j.
Proof.
  intros Hj HC. unfold rad_blocked, blocked_at.
  assert (EQ : forall x k, In x L -> In k L ->
    rad_blocks (nth (bp x) radii 0%R) (nth (bp k) radii 0%R) (rad_vec b points q x) (rad_vec b points q k) (bd x) (bd k) = true <->
    blocks (nth (bp x) radii 0%R) (nth (bp k) radii 0%R) (nb_vec b points q x) (nb_vec b points q k)).
  { intros x k Hx Hk. destruct (HC x Hx) as [Ex Px], (HC k Hk) as [Ek Pk]. rewrite Ex, Ek.
    apply rad_blocks_iff; [rewrite <- Ex|rewrite <- Ek]; auto. }
  rewrite existsb_exists. split.
  - intros (k & Hk & B). apply (In_nth _ _ bond0) in Hk as (n & Hn & <-). rewrite firstn_length in Hn.
    assert (En : nth n (firstn j L) bond0 = nth n L bond0).
    { rewrite <- (firstn_skipn j L) at 2. rewrite app_nth1 by (rewrite firstn_length; lia). auto. }
    rewrite En in B. exists n. split; [lia|]. apply EQ; auto; apply nth_In; lia.
  - intros (k & Hk & B). exists (nth k L bond0). split.
    + assert (En : nth k (firstn j L) bond0 = nth k L bond0).
      { rewrite <- (firstn_skipn j L) at 2. rewrite app_nth1 by (rewrite firstn_length; lia). auto. }
      rewrite <- En. apply nth_In. rewrite firstn_length. lia.
    + apply EQ; auto; apply nth_In; lia.
Qed.

(** RAD-open keeps exactly the neighbours not blocked by one preceding them in distance order. *)
Theorem C38_rad_open (allow : bool) (b : box) (points qpoints : list vec3) (radii : option (list R)) (nl nl' : nlist) :
  reach nl -> consistent b points qpoints (nl_bonds nl) ->
  rad_compute allow false b points qpoints radii nl (Filtered nl') ->
  forall i, i < nl_nq nl -> exists L keep, sort_result less_as_distance (of_point i (nl_bonds nl)) L /\
    Permutation (of_point i (nl_bonds nl')) (map (fun j => rad_bond b points i (nth i qpoints v0) (nth j L bond0)) keep) /\
    StronglySorted lt keep /\
    (forall j, In j keep <-> j < length L /\ ~ blocked_at b points (rad_radii points radii) (nth i qpoints v0) L j).
Proof.
  intros R HC H i Hi. unfold rad_compute in H.
  destruct (filtered_of_point _ allow nl nl' R (fun i l x => rad_shell_q b points (rad_radii points radii) false qpoints i l x) H) as (L & HL & HP & HO & _).
  exists (L i), (filter (fun j => negb (rad_blocked b points (rad_radii points radii) (nth i qpoints v0) (firstn j (L i)) (nth j (L i) bond0))) (seq 0 (length (L i)))).
  split; auto. split; [|split].
  - specialize (HP i). rewrite (proj2 (Nat.ltb_lt _ _) Hi) in HP. rewrite HP. unfold rad_shell.
    pose proof (rad_open b points (rad_radii points radii) i (nth i qpoints v0) (L i) [] true) as E.
    destruct (rad_loop _ _ _ _ _ _ _ _ _) as [k g]. simpl in E |- *. rewrite E. reflexivity.
  - assert (G : forall f m a, StronglySorted lt (filter f (seq a m)) /\ Forall (fun x => a <= x) (filter f (seq a m))).
    { intros f. induction m as [|m IH]; intros a; simpl; [split; constructor|]. destruct (IH (S a)) as [I1 I2].
      assert (I3 : Forall (fun x => a <= x) (filter f (seq (S a) m))) by (eapply Forall_impl; [|exact I2]; simpl; intros; lia).
      destruct (f a); [|auto]. split; constructor; auto. }
    apply G.
  - intros j. rewrite filter_In, in_seq, negb_true_iff.
    assert (CL : forall x, In x (L i) -> bd x = norm (nb_vec b points (nth i qpoints v0) x) /\ (0 < bd x)%R).
    { intros x Hx. assert (I : In x (of_point i (nl_bonds nl))) by (eapply Permutation_in; [symmetry; apply HL|auto]).
      apply filter_In in I as [I Q]. apply Nat.eqb_eq in Q. destruct (HC x I) as [A B]. rewrite Q in A. auto. }
    split.
    + intros [A B]. split; [lia|]. intros C. apply (rad_blocked_iff b points _ _ (L i) j ltac:(lia) CL) in C. congruence.
    + intros [A B]. split; [lia|]. destruct (rad_blocked _ _ _ _ _ _) eqn:E; auto. exfalso. apply B.
      apply (rad_blocked_iff b points _ _ (L i) j ltac:(lia) CL). auto.
Qed.
Print Assumptions C38_rad_open.

(** RAD-closed keeps the maximal unblocked prefix. *)
Theorem C38_rad_closed (allow : bool) (b : box) (points qpoints : list vec3) (radii : option (list R)) (nl nl' : nlist) :
  reach nl -> consistent b points qpoints (nl_bonds nl) ->
  rad_compute allow true b points qpoints radii nl (Filtered nl') ->
  forall i, i < nl_nq nl -> exists L m, sort_result less_as_distance (of_point i (nl_bonds nl)) L /\ m <= length L /\
    Permutation (of_point i (nl_bonds nl')) (map (rad_bond b points i (nth i qpoints v0)) (firstn m L)) /\
    (forall j, j < m -> ~ blocked_at b points (rad_radii points radii) (nth i qpoints v0) L j) /\
    (m < length L -> blocked_at b points (rad_radii points radii) (nth i qpoints v0) L m).
Proof.
  intros R HC H i Hi. unfold rad_compute in H.
  destruct (filtered_of_point _ allow nl nl' R (fun i l x => rad_shell_q b points (rad_radii points radii) true qpoints i l x) H) as (L & HL & HP & HO & _).
  destruct (rad_closed b points (rad_radii points radii) i (nth i qpoints v0) (L i) [] true) as (m & Hm & E & HA & HB & _).
  simpl in HA, HB.
  assert (CL : forall x, In x (L i) -> bd x = norm (nb_vec b points (nth i qpoints v0) x) /\ (0 < bd x)%R).
  { intros x Hx. assert (I : In x (of_point i (nl_bonds nl))) by (eapply Permutation_in; [symmetry; apply HL|auto]).
    apply filter_In in I as [I Q]. apply Nat.eqb_eq in Q. destruct (HC x I) as [A B]. rewrite Q in A. auto. }
  exists (L i), m. split; auto. split; auto. split; [|split].
  - specialize (HP i). rewrite (proj2 (Nat.ltb_lt _ _) Hi) in HP. rewrite HP. unfold rad_shell.
    destruct (rad_loop _ _ _ _ _ _ _ _ _) as [k g]. simpl in E |- *. rewrite E. reflexivity.
  - intros j Hj C. apply (rad_blocked_iff b points _ _ (L i) j ltac:(lia) CL) in C. rewrite HA in C by auto. discriminate.
  - intros HL'. apply (rad_blocked_iff b points _ _ (L i) m ltac:(lia) CL). auto.
Qed.
Print Assumptions C38_rad_closed.

(** RAD-closed raises exactly when incomplete shells are not allowed and some query point has no blocked
    neighbour; RAD-open never raises. *)
Theorem C38_rad_raises (allow closed : bool) (b : box) (points qpoints : list vec3) (radii : option (list R)) (nl : nlist) (res : outcome) :
  reach nl -> consistent b points qpoints (nl_bonds nl) -> rad_compute allow closed b points qpoints radii nl res ->
  exists L, (forall i, sort_result less_as_distance (of_point i (nl_bonds nl)) (L i)) /\
    (res = Raised <-> allow = false /\ closed = true /\ exists i, i < nl_nq nl /\
       forall j, j < length (L i) -> ~ blocked_at b points (rad_radii points radii) (nth i qpoints v0) (L i) j).
Proof.
  intros R HC H. destruct (filter_result _ allow nl res R H) as (L & HL & HR). exists L. split; auto.
  assert (CL : forall i x, In x (L i) -> bd x = norm (nb_vec b points (nth i qpoints v0) x) /\ (0 < bd x)%R).
  { intros i x Hx. assert (I : In x (of_point i (nl_bonds nl))) by (eapply Permutation_in; [symmetry; apply HL|auto]).
    apply filter_In in I as [I Q]. apply Nat.eqb_eq in Q. destruct (HC x I) as [A B]. rewrite Q in A. auto. }
  assert (U : forall i, snd (rad_shell b points (rad_radii points radii) closed qpoints i (L i)) = true <->
     closed = true /\ forall j, j < length (L i) -> ~ blocked_at b points (rad_radii points radii) (nth i qpoints v0) (L i) j).
  { intros i. unfold rad_shell. destruct closed.
    - destruct (rad_closed b points (rad_radii points radii) i (nth i qpoints v0) (L i) [] true) as (m & Hm & _ & HA & HB & EG).
      destruct (rad_loop _ _ _ _ _ _ _ _ _) as [k g]. simpl in HA, HB, EG |- *. rewrite andb_true_r, EG.
      destruct (Nat.eqb_spec m (length (L i))) as [Em|Em].
      + destruct (length (L i) =? 0); (split; [intros _; split; auto|auto]); intros j Hj C;
          apply (rad_blocked_iff b points _ _ (L i) j ltac:(lia) (CL i)) in C; rewrite HA in C by lia; discriminate.
      + split; [discriminate|]. intros [_ N]. exfalso. apply (N m ltac:(lia)).
        apply (rad_blocked_iff b points _ _ (L i) m ltac:(lia) (CL i)). apply HB. lia.
    - destruct (rad_loop _ _ _ _ _ _ _ _ _) as [k g]. simpl. rewrite andb_false_r. split; [discriminate|]. intros [F _]. discriminate. }
  destruct HR as [((i & Hi & Ui) & A & ->)|(NU & l & _ & _ & [(_ & ->)|(q & p & -> & _)])].
  - split; auto. intros _. apply U in Ui as [-> Ui]. split; auto. split; auto. exists i. auto.
  - split; [discriminate|]. intros (A & C & i & Hi & N). exfalso. apply NU. split; auto. exists i. split; auto. apply U; auto.
  - split; [discriminate|]. intros (A & C & i & Hi & N). exfalso. apply NU. split; auto. exists i. split; auto. apply U; auto.
Qed.
Print Assumptions C38_rad_raises.

(** The construction only looks at point indices and distances. *)
Lemma rad_loop_key b points radii closed i q : forall rest rest' prev prev' g,
  map key rest = map key rest' -> map key prev = map key prev' ->
  rad_loop b points radii closed i q prev rest g = rad_loop b points radii closed i q prev' rest' g.
Proof.
  induction rest as [|x rest IH]; intros [|x' rest'] prev prev' g E1 E2; try discriminate; auto.
  simpl in E1. injection E1 as A B C D E1.
  assert (EB : rad_blocked b points radii q prev x = rad_blocked b points radii q prev' x').
  { unfold rad_blocked, rad_vec. rewrite B, C. revert prev' E2. induction prev as [|y prev IHp]; intros [|y' prev'] E2; try discriminate; auto.
    simpl in E2. injection E2 as A' B' C' D' E2. simpl. rewrite B', C'. f_equal. apply IHp; auto. }
  assert (EP : map key (prev ++ [x]) = map key (prev' ++ [x'])).
  { rewrite !map_app. simpl. unfold key at 2 4. rewrite A, B, C, D, E2. reflexivity. }
  cbn [rad_loop]. rewrite EB. destruct (rad_blocked b points radii q prev' x').
  - destruct closed; auto.
  - rewrite (IH rest' (prev ++ [x]) (prev' ++ [x']) true E1 EP). unfold rad_vec. rewrite B, C. reflexivity.
Qed.
Lemma rad_closed_incl b points radii i q : forall rest prev g g' x,
  In x (fst (rad_loop b points radii true i q prev rest g)) -> In x (fst (rad_loop b points radii false i q prev rest g')).
Proof.
  induction rest as [|y rest IH]; intros prev g g' x; simpl; auto.
  destruct (rad_blocked b points radii q prev y); [simpl; contradiction|].
  specialize (IH (prev ++ [y]) true true x).
  destruct (rad_loop b points radii true i q (prev ++ [y]) rest true) as [k1 g1].
  destruct (rad_loop b points radii false i q (prev ++ [y]) rest true) as [k2 g2]. simpl in *. tauto.
Qed.
(** RAD-closed is a subset of RAD-open, whatever the two runs do with ties. *)
Theorem C38_closed_subset_open (a1 a2 : bool) (b : box) (points qpoints : list vec3) (radii : option (list R)) (nl nc no : nlist) :
  reach nl -> rad_compute a1 true b points qpoints radii nl (Filtered nc) ->
  rad_compute a2 false b points qpoints radii nl (Filtered no) ->
  forall x, In x (nl_bonds nc) -> In x (nl_bonds no).
Proof.
  intros R Hc Ho x Hx.
  destruct (filtered_of_point _ a1 nl nc R (fun i l x => rad_shell_q b points (rad_radii points radii) true qpoints i l x) Hc) as (L & HL & HP & _ & _).
  destruct (filtered_of_point _ a2 nl no R (fun i l x => rad_shell_q b points (rad_radii points radii) false qpoints i l x) Ho) as (L' & HL' & HP' & _ & _).
  assert (I : In x (of_point (bq x) (nl_bonds nc))) by (apply filter_In; split; auto; apply Nat.eqb_refl).
  apply (Permutation_in _ (HP (bq x))) in I. destruct (Nat.ltb_spec (bq x) (nl_nq nl)); [|contradiction].
  assert (I' : In x (of_point (bq x) (nl_bonds no))).
  { apply (Permutation_in _ (Permutation_sym (HP' (bq x)))). rewrite (proj2 (Nat.ltb_lt _ _) H).
    unfold rad_shell in *.
    rewrite <- (rad_loop_key b points (rad_radii points radii) false (bq x) (nth (bq x) qpoints v0) (L (bq x)) (L' (bq x)) [] [] true
                 (sort_result_keys _ _ _ (HL _) (HL' _)) eq_refl).
    pose proof (rad_closed_incl b points (rad_radii points radii) (bq x) (nth (bq x) qpoints v0) (L (bq x)) [] true true x) as IN.
    destruct (rad_loop _ _ _ true _ _ _ _ _) as [k g]. destruct (rad_loop _ _ _ false _ _ _ _ _) as [k' g']. simpl in *. auto. }
  apply filter_In in I' as [I' _]. auto.
Qed.
Print Assumptions C38_closed_subset_open.

(** With equal radii a neighbour at the same distance never blocks, so only strictly nearer ones matter. *)
Theorem C38_equal_radii_ties (r : R) (vj vk : vec3) : (0 < norm vj)%R -> norm vk = norm vj -> ~ blocks r r vj vk.
Proof.
  intros Hj E B. unfold blocks, cos_angle in B. rewrite E in B. pose proof (abs_dot_le vj vk) as C. rewrite E in C.
  assert (D : (dot vj vk <= norm vj * norm vj)%R) by (pose proof (Rle_abs (dot vj vk)); lra).
  assert (D' : (dot vj vk / (norm vj * norm vj) <= 1)%R).
  { apply Rmult_le_reg_r with (norm vj * norm vj)%R; [apply Rmult_lt_0_compat; auto|]. unfold Rdiv. rewrite Rmult_assoc, Rinv_l; [lra|].
    apply Rgt_not_eq. apply Rmult_lt_0_compat; auto. }
  pose proof (Rle_0_sqr (r / norm vj)) as S. unfold Rsqr in S. nra.
Qed.
Print Assumptions C38_equal_radii_ties.
(** With different radii, of two neighbours at equal distance the one with the smaller index can remove the other
    one although it is not nearer. *)
Theorem C38_strictly_nearer_refuted : exists b points radii q L j, j < length L /\
  (forall x, In x L -> bd x = norm (nb_vec b points q x) /\ (0 < bd x)%R) /\
  sort_result less_as_distance L L /\ blocked_at b points radii q L j /\
  (forall k, k < length L -> ~ (bd (nth k L bond0) < bd (nth j L bond0))%R).
Proof.
  set (b := mk_box 10 10 10 0 0 0 false).
  assert (P : positive b) by (apply mk_box_positive; intros; lra).
  set (p0 := V3 (-4/5) (-3/5) 0). set (p1 := V3 (-1) 0 0).
  assert (W0 : wrap b (vsub v0 p0) = V3 (4/5) (3/5) 0).
  { rewrite wrap_fix; [unfold vsub, p0; simpl; apply vec_eq; simpl; field| apply P | discriminate |].
    unfold make_fractional, b, p0; simpl. repeat split; intros; lra. }
  assert (W1 : wrap b (vsub v0 p1) = V3 1 0 0).
  { rewrite wrap_fix; [unfold vsub, p1; simpl; apply vec_eq; simpl; field| apply P | discriminate |].
    unfold make_fractional, b, p1; simpl. repeat split; intros; lra. }
  assert (N0 : norm (V3 (4/5) (3/5) 0) = 1%R).
  { unfold norm, dot; simpl. replace (4/5*(4/5)+3/5*(3/5)+0*0)%R with 1%R by field. apply sqrt_1. }
  assert (N1 : norm (V3 1 0 0) = 1%R).
  { unfold norm, dot; simpl. replace (1*1+0*0+0*0)%R with 1%R by ring. apply sqrt_1. }
  set (L := [Bond 0 0 1%R 1%R v0; Bond 0 1 1%R 1%R v0]).
  exists b, [p0; p1], [2%R; 1%R], v0, L, 1. split; [simpl; lia|]. split; [|split; [|split]].
  - intros x [<-|[<-|[]]]; unfold nb_vec; simpl nth; simpl bd; [rewrite W0, N0|rewrite W1, N1]; split; lra.
  - split; [reflexivity|]. intros i j Hij. simpl in Hij. assert (i = 0 /\ j = 1) as [-> ->] by lia. simpl. unfold less_as_distance. simpl.
    destruct (Reqb_spec 1 1); [reflexivity|congruence].
  - exists 0. split; [lia|]. unfold nb_vec, blocks, cos_angle. simpl nth. rewrite W0, W1, N0, N1. unfold dot; simpl. lra.
  - intros k Hk. simpl in Hk. destruct k as [|[|]]; simpl; try lia; lra.
Qed.
Print Assumptions C38_strictly_nearer_refuted.

(** ** C22 *)
(** The documented direction: vector = (image of) point minus query point. *)
Definition direction_ok (b : box) (points qpoints : list vec3) (x : bond) : Prop :=
  image_of b (bv x) (vsub (nth (bp x) points v0) (nth (bq x) qpoints v0)).

(** Lists made from a query keep the vectors the query delivered and set the distances to their lengths; so they
    satisfy the convention if the query does.  Filters, sorting and copying keep the bonds. *)
Theorem C22_query_list (by_d : bool) (nq np : nat) (pp : nat -> list bond) (ev ev2 : list (nat * nat)) (nl : nlist)
    (b : box) (points qpoints : list vec3) :
  execution 0 nq ev -> execution 0 (length (nl_bonds nl)) ev2 -> to_neighbor_list by_d nq np pp ev ev2 nl ->
  (forall i x, In x (pp i) -> direction_ok b points qpoints x) ->
  forall x, In x (nl_bonds nl) -> direction_ok b points qpoints x /\ bd x = norm (bv x).
Proof.
  intros HE HE2 HT HD x Hx. destruct (to_neighbor_list_spec _ _ _ _ _ _ _ HE HE2 HT) as (_ & _ & _ & HP & _).
  apply (Permutation_in _ (Permutation_sym HP)) in Hx. apply in_map_iff in Hx as (y & <- & Hy). apply in_flat_map in Hy as (i & _ & Hy).
  split; [exact (HD i y Hy)|reflexivity].
Qed.
Print Assumptions C22_query_list.
Theorem C22_kept_by_filters (b : box) (points qpoints : list vec3) (nl : nlist) :
  (forall x, In x (nl_bonds nl) -> direction_ok b points qpoints x) ->
  (forall mask nl' k, nl_filter nl mask = Some (nl', k) -> forall x, In x (nl_bonds nl') -> direction_ok b points qpoints x) /\
  (forall r1 r2 nl' k, nl_filter_r nl r1 r2 = Some (nl', k) -> forall x, In x (nl_bonds nl') -> direction_ok b points qpoints x) /\
  (forall by_d ev nl', execution 0 (length (nl_bonds nl)) ev -> nl_sort by_d ev nl nl' -> forall x, In x (nl_bonds nl') -> direction_ok b points qpoints x) /\
  (forall allow nl', reach nl -> sann_compute allow nl (Filtered nl') -> forall x, In x (nl_bonds nl') -> direction_ok b points qpoints x).
Proof.
  intros HD. split; [|split; [|split]].
  - intros mask nl' k E x Hx. destruct (Nat.lt_ge_cases (length mask) (length (nl_bonds nl))) as [C|C].
    + rewrite nl_filter_short in E by auto. discriminate.
    + rewrite nl_filter_spec in E by auto. injection E as <- _. apply HD. eapply select_incl; exact Hx.
  - intros r1 r2 nl' k E x Hx. rewrite nl_filter_r_spec in E. destruct (_ && _ && _); [|discriminate]. cbv zeta in E. injection E as <- _.
    simpl in Hx. apply filter_In in Hx as [Hx _]. auto.
  - intros by_d ev nl' HE HS x Hx. destruct (C23_sort by_d ev nl nl' HE HS) as (HP & _). apply HD. eapply Permutation_in; [symmetry; exact HP|auto].
  - intros allow nl' R HS x Hx. destruct (C37_sann_shell allow nl nl' R HS) as [H _]. destruct (H (bq x)) as (L & m & HL & HP & _).
    assert (I : In x (of_point (bq x) (nl_bonds nl'))) by (apply filter_In; split; auto; apply Nat.eqb_refl).
    apply (Permutation_in _ HP) in I.
    assert (I' : In x L) by (rewrite <- (firstn_skipn m L); apply in_or_app; auto).
    apply (Permutation_in _ (Permutation_sym (proj1 HL))) in I'. apply filter_In in I' as [I' _]. auto.
Qed.
Print Assumptions C22_kept_by_filters.

(** all_pairs and RAD store (an image of) query point minus point instead. *)
Theorem C22_all_pairs_opposite (b : box) (points qpoints : list vec3) (excl : bool) (ev : list (nat * nat)) (nl : nlist) :
  nonsingular b -> (forall p, In p points \/ In p qpoints -> in_space b p) ->
  execution 0 (length qpoints) ev -> all_pairs b points qpoints excl ev = Some nl ->
  forall x, In x (nl_bonds nl) -> image_of b (bv x) (vsub (nth (bq x) qpoints v0) (nth (bp x) points v0)) /\ bd x = norm (bv x).
Proof.
  intros HN HSp HE E x Hx. rewrite all_pairs_spec in E by auto. injection E as <-. simpl in Hx.
  apply in_flat_map in Hx as (i & Hi & Hx). unfold range in Hi. apply in_seq in Hi. apply in_row in Hx as (j & Hj & _ & ->). simpl. split; auto.
  apply wrap_image; auto. intros E2. simpl. rewrite (HSp (nth i qpoints v0)), (HSp (nth j points v0)); auto; try ring.
  - left. apply nth_In; auto.
  - right. apply nth_In; lia.
Qed.
Print Assumptions C22_all_pairs_opposite.

Definition ex_cube : box := mk_box 10 10 10 0 0 0 false.
Lemma ex_cube_positive : positive ex_cube.
Proof. apply mk_box_positive; intros; lra. Qed.
Lemma ex_wrap : wrap ex_cube (vsub v0 (V3 1 0 0)) = V3 (-1) 0 0.
Proof.
  rewrite wrap_fix; [unfold vsub; simpl; apply vec_eq; simpl; field| apply ex_cube_positive | discriminate |].
  unfold make_fractional, ex_cube; simpl. repeat split; intros; lra.
Qed.
Lemma ex_not_image : ~ image_of ex_cube (V3 (-1) 0 0) (vsub (V3 1 0 0) v0).
Proof.
  intros (i & j & k & _ & E). apply (f_equal vx) in E. simpl in E.
  assert (E' : (IZR (5 * i + 1) = 0)%R) by (rewrite plus_IZR, mult_IZR; lra). apply (eq_IZR _ 0) in E'. lia.
Qed.
Theorem C22_all_pairs_refuted : exists b points qpoints ev nl, positive b /\ execution 0 (length qpoints) ev /\
  all_pairs b points qpoints false ev = Some nl /\ exists x, In x (nl_bonds nl) /\ ~ direction_ok b points qpoints x.
Proof.
  exists ex_cube, [V3 1 0 0], [v0], [(0, 0)]. eexists. split; [apply ex_cube_positive|].
  split; [exact (sequential_execution 0 1 0)|]. split; [apply all_pairs_spec; exact (sequential_execution 0 1 0)|].
  eexists. split; [left; reflexivity|]. unfold direction_ok. simpl. rewrite ex_wrap. apply ex_not_image.
Qed.
Print Assumptions C22_all_pairs_refuted.
Lemma ex_single_run shell bnd : bq bnd = 0 ->
  (exists x, fst (shell 0 [bnd]) = [x] /\ bq x = 0 /\ bp x = 0) ->
  exists x, fst (shell 0 [bnd]) = [x] /\ filter_compute shell true (NL 1 1 [bnd] false [0] [0]) (Filtered (NL 1 1 [x] false [0] [0])).
Proof.
  intros Q (x & E & Qx & Px). exists x. split; auto.
  assert (S1 : forall y : bond, sort_result less_as_distance [y] [y]) by (intros; split; [reflexivity|intros; simpl in *; lia]).
  assert (X1 : execution 0 1 [(0, 0)]) by exact (sequential_execution 0 1 0).
  exists [(0, 0)], (NL 1 1 [bnd] false [0] [0]). split; [exact X1|]. split; [exists [bnd]; split; [apply S1|reflexivity]|].
  unfold get_counts, update_segment_counts. simpl. rewrite Q. simpl. exists [(0, 0)]. split; [exact X1|].
  unfold slice, find_first_index. simpl. rewrite andb_false_r, E. simpl. exists [x], [(0, 0)].
  split; [apply S1|]. split; [exact X1|]. unfold from_bonds. simpl. rewrite Qx, Px. reflexivity.
Qed.
Theorem C22_rad_refuted : exists b points qpoints nl nl', positive b /\ reach nl /\
  (forall x, In x (nl_bonds nl) -> direction_ok b points qpoints x) /\
  rad_compute true true b points qpoints None nl (Filtered nl') /\ exists x, In x (nl_bonds nl') /\ ~ direction_ok b points qpoints x.
Proof.
  set (bnd := Bond 0 0 (norm (V3 1 0 0)) 1%R (V3 1 0 0)).
  destruct (ex_single_run (rad_shell ex_cube [V3 1 0 0] (rad_radii [V3 1 0 0] None) true [v0]) bnd eq_refl) as (x & E & H).
  { eexists. split; [reflexivity|split; reflexivity]. }
  exists ex_cube, [V3 1 0 0], [v0], (NL 1 1 [bnd] false [0] [0]), (NL 1 1 [x] false [0] [0]).
  split; [apply ex_cube_positive|]. split; [apply (reach_arrays 1 1 [0] [0] [V3 1 0 0] None); reflexivity|]. split; [|split; [exact H|]].
  - intros y [<-|[]]. unfold direction_ok. simpl. exists 0%Z, 0%Z, 0%Z. split; [repeat split; auto|].
    unfold shift, comb, a1, a2, a3. apply vec_eq; simpl; ring.
  - exists x. split; [left; auto|]. simpl in E. injection E as <-. unfold direction_ok, rad_vec. simpl. rewrite ex_wrap. apply ex_not_image.
Qed.
Print Assumptions C22_rad_refuted.

(** ** C25 *)
(** A list made by a query is accepted for the same numbers of points, and stays so under filter, filter_r, sort,
    copy and reading. *)
Theorem C25_query_list_reusable (by_d : bool) (nq np : nat) (pp : nat -> list bond) (ev ev2 : list (nat * nat)) (nl : nlist) :
  to_neighbor_list by_d nq np pp ev ev2 nl -> make_default_nlist nl nq np = Some nl /\
  (forall nq' np', make_default_nlist nl nq' np' = Some nl -> nq' = nq /\ np' = np).
Proof.
  intros (l & _ & ->). unfold make_default_nlist, nl_validate. simpl. rewrite !Nat.eqb_refl. split; auto. intros nq' np'.
  destruct (Nat.eqb_spec nq' nq), (Nat.eqb_spec np' np); simpl; try discriminate; auto.
Qed.
Print Assumptions C25_query_list_reusable.
Theorem C25_kept (nl nl' : nlist) (nq np : nat) : nl_validate nl nq np = true ->
  (exists mask k, nl_filter nl mask = Some (nl', k)) \/ (exists r1 r2 k, nl_filter_r nl r1 r2 = Some (nl', k)) \/
  (exists by_d ev, execution 0 (length (nl_bonds nl)) ev /\ nl_sort by_d ev nl nl') \/ nl' = nl_copy nl \/
  (reach nl /\ update_segment_counts nl = Some nl') ->
  nl_validate nl' nq np = true.
Proof.
  unfold nl_validate. intros V [(mask & k & E)|[(r1 & r2 & k & E)|[(by_d & ev & HE & HS)|[->|[R E]]]]].
  - unfold nl_filter in E. destruct (filter_loop _ _ _ _); [|discriminate]. injection E as <- _. exact V.
  - rewrite nl_filter_r_spec in E. destruct (_ && _ && _); [|discriminate]. cbv zeta in E. injection E as <- _. exact V.
  - destruct (C23_sort by_d ev nl nl' HE HS) as (_ & -> & -> & _). exact V.
  - exact V.
  - apply reach_inv in R. destruct (update_inv nl nl' R E) as (_ & -> & -> & _). exact V.
Qed.
Print Assumptions C25_kept.

(** Filtered lists: accepted exactly when the last query point and the last point still have a bond. *)
Theorem C25_filter_accepted (shell : nat -> list bond -> list bond * bool) (allow : bool) (nl nl' : nlist) (nq np : nat) :
  reach nl -> (forall i l x, In x (fst (shell i l)) -> bq x = i /\ exists y, In y l /\ bp y = bp x) ->
  filter_compute shell allow nl (Filtered nl') -> nl_validate nl nq np = true ->
  (nl_validate nl' nq np = true <->
   (exists x, In x (nl_bonds nl') /\ bq x + 1 = nq) /\ (exists x, In x (nl_bonds nl') /\ bp x + 1 = np)).
Proof.
  intros R HS H V. destruct (filter_result shell allow nl _ R H) as (L & HL & [(_ & _ & F)|(_ & l & HP & _ & [(_ & F)|(q & p & F & M & (xq & Iq & Eq) & (xp & Ip & Ep))])]); try discriminate.
  injection F as ->. cbn [nl_bonds nl_nq nl_np]. unfold nl_validate in *. cbn [nl_bonds nl_nq nl_np].
  apply andb_true_iff in V as [V1 V2]. apply Nat.eqb_eq in V1, V2.
  assert (B : forall x, In x l -> bq x < nq /\ bp x < np).
  { intros x Hx. apply (Permutation_in _ (Permutation_sym HP)) in Hx. apply in_flat_map in Hx as (i & Hi & Hx). unfold range in Hi. apply in_seq in Hi.
    destruct (HS _ _ _ Hx) as [<- (y & Hy & <-)]. split; [lia|].
    apply (Permutation_in _ (Permutation_sym (proj1 (HL (bq x))))) in Hy. apply filter_In in Hy as [Hy _].
    destruct (C19_reachable_valid nl R) as [_ W]. specialize (W y Hy). lia. }
  rewrite andb_true_iff, !Nat.eqb_eq. split.
  - intros [E1 E2]. split; [exists xq|exists xp]; split; auto; lia.
  - intros [(y & Iy & Ey) (z & Iz & Ez)]. destruct (M y Iy), (M z Iz), (B xq Iq), (B xp Ip). lia.
Qed.
Print Assumptions C25_filter_accepted.
(** The hypothesis on shells holds for SANN and RAD. *)
Theorem C25_filters_covered : (forall i l x, In x (fst (sann_shell i l)) -> bq x = i /\ exists y, In y l /\ bp y = bp x) /\
  (forall b points radii closed qpoints i l x, In x (fst (rad_shell b points radii closed qpoints i l)) -> bq x = i /\ exists y, In y l /\ bp y = bp x).
Proof.
  split.
  - intros i l x Hx. split; [eapply sann_shell_q; eauto|]. destruct (sann_shell_spec i l) as (m & _ & E & _). rewrite E in Hx. simpl in Hx.
    apply in_map_iff in Hx as (y & <- & Hy). exists y. split; [|reflexivity]. rewrite <- (firstn_skipn m l). apply in_or_app; auto.
  - intros b points radii closed qpoints i l x Hx. split; [eapply rad_shell_q; eauto|]. unfold rad_shell in Hx.
    assert (G : forall rest prev g, In x (fst (rad_loop b points radii closed i (nth i qpoints v0) prev rest g)) -> exists y, In y rest /\ bp y = bp x).
    { clear. induction rest as [|y rest IH]; intros prev g; simpl; [contradiction|].
      destruct (rad_blocked _ _ _ _ _ _).
      - destruct closed; simpl; [contradiction|]. intros H. destruct (IH _ _ H) as (z & Hz & E). eauto.
      - specialize (IH (prev ++ [y]) true). destruct (rad_loop _ _ _ _ _ _ _ _ _). simpl in *. intros [<-|H]; [exists y; simpl; auto|].
        destruct (IH H) as (z & Hz & E). eauto. }
    specialize (G l [] true). destruct (rad_loop _ _ _ _ _ _ _ _ _). simpl in *. auto.
Qed.
Print Assumptions C25_filters_covered.

Theorem C25_filter_reuse_refuted : exists nl nl', reach nl /\ nl_validate nl 2 2 = true /\
  sann_compute true nl (Filtered nl') /\ nl_validate nl' 2 2 = false /\ make_default_nlist nl' 2 2 = None.
Proof.
  set (bnd := Bond 0 0 (norm (V3 1 0 0)) 1%R (V3 1 0 0)).
  assert (S1 : forall y : bond, sort_result less_as_distance [y] [y]) by (intros; split; [reflexivity|intros; simpl in *; lia]).
  assert (X1 : execution 0 1 [(0, 0)]) by exact (sequential_execution 0 1 0).
  exists (NL 2 2 [bnd] false [0; 0] [0; 0]), (NL 1 1 [bnd] false [0] [0]).
  split; [apply (reach_arrays 2 2 [0] [0] [V3 1 0 0] None); reflexivity|]. split; auto. split; [|split; reflexivity].
  exists [(0, 0)], (NL 2 2 [bnd] false [0; 0] [0; 0]). split; [exact X1|]. split; [exists [bnd]; split; [apply S1|reflexivity]|].
  cbn -[norm]. exists [(0, 0); (0, 1)]. split; [exact (sequential_execution 0 2 0)|]. cbn -[norm].
  exists [bnd], [(0, 0)]. split; [apply S1|]. split; [exact X1|]. reflexivity.
Qed.
Print Assumptions C25_filter_reuse_refuted.
