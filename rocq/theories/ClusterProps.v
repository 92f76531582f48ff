(** C39, C40: clusters are the connected components, numbered canonically. *)
From Verif Require Import DsetSpec DsetProofs DsetProps ClusterModel ClusterProofs ClusterSpec.

Lemma perm_seq_facts num idx : Permutation (seq 0 num) idx -> NoDup idx /\ length idx = num /\ (forall a, a < num -> nth a idx 0 < num) /\ (forall x, x < num -> exists a, a < num /\ nth a idx 0 = x).
Proof.
  intros P. assert (L : length idx = num) by (rewrite <- (Permutation_length P); apply seq_length). split; [apply (Permutation_NoDup P); apply seq_NoDup|]. split; auto. split.
  - intros a Ha. assert (H : In (nth a idx 0) idx) by (apply nth_In; lia). apply (Permutation_in _ (Permutation_sym P)) in H. apply in_seq in H. lia.
  - intros x Hx. assert (H : In x idx) by (apply (Permutation_in _ P); apply in_seq; lia). destruct (In_nth _ _ 0 H) as (a & Ha & E). exists a. split; auto. lia.
Qed.
Definition key_of (keys : option vec) (i : nat) : nat := match keys with Some k => k i | None => i end.
Lemma assign_result keys st reindex rt k r0 : cr_keys r0 = (fun _ => []) ->
  let r := fold_left (fun r i => assign_step keys st reindex (rt i) i r) (seq 0 k) r0 in
  cr_num r = cr_num r0 /\ (forall i, i < k -> cr_idx r i = reindex (lb_label st (rt i))) /\
  (forall c, cr_keys r c = map (key_of keys) (filter (fun i => Nat.eqb (reindex (lb_label st (rt i))) c) (seq 0 k))).
Proof.
  intros K0. induction k as [|k (I1 & I2 & I3)]; [cbn; rewrite K0; split; auto; split; auto; lia|]. rewrite seq_snoc, fold_left_app. cbn [fold_left]. cbv zeta in *.
  set (r := fold_left (fun r i => assign_step keys st reindex (rt i) i r) (seq 0 k) r0) in *. unfold assign_step. cbn [cr_num cr_idx cr_keys]. split; auto. split.
  - intros i Hi. destruct (Nat.eq_dec i k) as [-> |]; [apply vset_same|rewrite vset_other by auto; apply I2; lia].
  - intros c. cbn beta. rewrite filter_app, map_app, <- I3. cbn [filter]. rewrite (Nat.eqb_sym c). destruct (Nat.eqb (reindex (lb_label st (rt k))) c); cbn [map]; rewrite ?app_nil_r; auto.
Qed.
Lemma cluster_main n threads keys r : (forall p q, In (p, q) (concat threads) -> p < n /\ q < n) -> cluster_run n threads keys r ->
  canonical n (concat threads) (cr_num r) (cr_idx r) /\ forall c, c < cr_num r -> cr_keys r c = map (key_of keys) (members n (cr_idx r) c).
Proof.
  intros HB (m1 & m2 & m3 & st & idx & MR & R1 & [SP SO] & R2). set (pairs := concat threads) in *.
  destruct (merge_result n threads m1 HB MR) as [HI1 CL]. fold pairs in HI1, CL.
  destruct (finite_choice n (fun i r => reach m1 i r /\ r < n)) as [rt RT].
  { intros i Hi. destruct (reach_exists n (connected pairs) (connected_refl _) (connected_trans _) m1 HI1 i Hi) as (z & Z1 & Z2 & _). eauto. }
  assert (RT1 : forall i, i < n -> reach m1 i (rt i)) by (intros; apply RT; auto). assert (RTn : forall i, i < n -> rt i < n) by (intros; apply RT; auto).
  assert (RTC : forall i j, i < n -> j < n -> rt i = rt j <-> connected pairs i j).
  { intros i j Hi Hj. rewrite <- CL by auto. split; [intros E; exists (rt i); split; [auto|rewrite E; auto]|]. intros (z & Z1 & Z2). rewrite (reach_det _ _ _ (RT1 i Hi) _ Z1), (reach_det _ _ _ (RT1 j Hj) _ Z2). auto. }
  assert (SEQ : forall i, In i (seq 0 n) -> i < n) by (intros i Hi; apply in_seq in Hi; lia).
  destruct (run1_safe n pairs m1 _ _ m2 st HI1 (fun N => label_safe n pairs m1 rt CL RT1 (seq 0 n) SEQ (labels_init n) N m1 HI1 (ev_refl n m1)) R1) as (HI2 & E2 & ->).
  destruct (run1_safe n pairs m2 _ _ m3 r HI2 (fun N => assign_safe n pairs m1 rt CL RT1 keys _ (invert idx) (seq 0 n) SEQ _ N m2 HI2 E2) R2) as (_ & _ & ->).
  fold (labelled n rt n) in *. pose proof (labelled_inv n rt n (le_n n)) as LI. set (st := labelled n rt n) in *. clearbody st. destruct LI as [_ L2 _ L4 L5 L6].
  set (L := fun i => lb_label st (rt i)). destruct (perm_seq_facts _ _ SP) as (ND & LEN & P1 & P2). set (num := lb_num st) in *.
  destruct (assign_result keys st (invert idx) rt n (CR num (fun _ => 0) (fun _ => [])) eq_refl) as (F1 & F2 & F3).
  set (res := fold_left _ (seq 0 n) (CR num (fun _ => 0) (fun _ => []))) in *. clearbody res. cbn [cr_num] in F1. rewrite F1.
  assert (INV : forall x, x < num -> invert idx x < num /\ nth (invert idx x) idx 0 = x).
  { intros x Hx. destruct (P2 x Hx) as (a & Ha & Ea). rewrite <- Ea, invert_spec by (auto; lia). auto. }
  assert (INJ : forall i, i < n -> forall c, c < num -> cr_idx res i = c <-> L i = nth c idx 0).
  { intros i Hi c Hc. rewrite F2 by auto. fold (L i). assert (LiN : L i < num) by (apply L2; auto). split; [intros <-; symmetry; apply INV; auto|]. intros ->. apply invert_spec; auto. lia. }
  assert (IDXn : forall i, i < n -> cr_idx res i < num) by (intros i Hi; rewrite F2 by auto; apply INV, L2; auto).
  assert (LC : forall i j, i < n -> j < n -> L i = L j <-> connected pairs i j).
  { intros i j Hi Hj. rewrite <- RTC by auto. split; [apply L4; auto|]. unfold L. intros ->. auto. }
  assert (MEM : forall c, c < num -> members n (cr_idx res) c = filter (fun i => Nat.eqb (L i) (nth c idx 0)) (seq 0 n)).
  { intros c Hc. unfold members. apply filter_ext_in. intros i Hi. apply SEQ in Hi. pose proof (INJ i Hi c Hc). destruct (Nat.eqb_spec (cr_idx res i) c), (Nat.eqb_spec (L i) (nth c idx 0)); tauto. }
  assert (SZ : forall c, c < num -> size n (cr_idx res) c = lb_count st (nth c idx 0)) by (intros c Hc; unfold size; rewrite MEM, L6 by auto; auto).
  assert (MIN : forall c i, c < num -> smallest n (cr_idx res) c i -> i = lb_min st (nth c idx 0)).
  { intros c i Hc [S1 S2]. rewrite MEM in * by auto. destruct (L5 (nth c idx 0) (P1 c Hc)) as (M1 & M2 & M3). apply filter_In in S1 as [S1 S1']. apply SEQ in S1. apply Nat.eqb_eq in S1'. apply Nat.le_antisymm; [|apply M3; auto].
    apply S2. apply filter_In. split; [apply in_seq; lia|]. apply Nat.eqb_eq. auto. }
  split; [split; [|split; [|split]]|]; auto.
  - intros i j Hi Hj. rewrite <- LC by auto. assert (LiN : L i < num) by (apply L2; auto). rewrite (INJ i Hi) by auto. rewrite F2 by auto. fold (L j). destruct (INV (L j)) as [_ ->]; [apply L2; auto|]. tauto.
  - intros c Hc. destruct (L5 (nth c idx 0) (P1 c Hc)) as (M1 & M2 & _). exists (lb_min st (nth c idx 0)). split; auto. apply INJ; auto.
  - intros c d i j Hcd S1 S2. rewrite !SZ by lia. rewrite (MIN c i), (MIN d j) by (auto; lia). specialize (SO c d ltac:(lia)). unfold before in SO.
    destruct (Nat.eqb_spec (lb_count st (nth d idx 0)) (lb_count st (nth c idx 0))) as [E|NE]; cbn [negb] in SO; apply Nat.ltb_ge in SO; [|lia]. right. split; auto.
    destruct (L5 (nth c idx 0) (P1 c ltac:(lia))) as (_ & M2 & _). destruct (L5 (nth d idx 0) (P1 d ltac:(lia))) as (_ & M2' & _).
    destruct (Nat.eq_dec (lb_min st (nth c idx 0)) (lb_min st (nth d idx 0))) as [EM|]; [|lia]. exfalso. rewrite EM in M2. rewrite M2' in M2. assert (d = c) by (apply (proj1 (NoDup_nth idx 0) ND); auto; lia). lia.
  - intros c Hc. rewrite F3. f_equal. rewrite MEM by auto. apply filter_ext_in. intros i Hi. apply SEQ in Hi. pose proof (INJ i Hi c Hc) as H. rewrite F2 in H by auto. fold (L i) in *.
    destruct (Nat.eqb_spec (invert idx (L i)) c), (Nat.eqb_spec (L i) (nth c idx 0)); tauto.
Qed.

Lemma canonical_connected n b b' num idx : (forall x y, connected b x y <-> connected b' x y) -> canonical n b num idx -> canonical n b' num idx.
Proof. intros H (A1 & A2). split; auto. intros i j Hi Hj. rewrite <- H. auto. Qed.
Lemma pairs_perm n (bonds l : list (nat * nat)) : Permutation bonds l -> (forall p q, In (p, q) bonds -> p < n /\ q < n) -> forall p q, In (p, q) l -> p < n /\ q < n.
Proof. intros P H p q Hin. apply H. apply (Permutation_in _ (Permutation_sym P)). auto. Qed.

(** However the bonds are distributed over threads and however the threads are interleaved, two points get the same index
    exactly when a path of bonds joins them. *)
Theorem C39_components : forall n bonds threads keys r, (forall p q, In (p, q) bonds -> p < n /\ q < n) -> Permutation bonds (concat threads) ->
  cluster_run n threads keys r -> forall i j, i < n -> j < n -> cr_idx r i = cr_idx r j <-> connected bonds i j.
Proof.
  intros n bonds threads keys r HB P R i j Hi Hj. destruct (cluster_main n threads keys r (pairs_perm n _ _ P HB) R) as [[C _] _]. rewrite C by auto. symmetry. apply connected_perm. auto.
Qed.
(** The numbering is the canonical one; the keys of a cluster are those of its members, in increasing order of index. *)
Theorem C40_numbering : forall n bonds threads keys r, (forall p q, In (p, q) bonds -> p < n /\ q < n) -> Permutation bonds (concat threads) ->
  cluster_run n threads keys r -> canonical n bonds (cr_num r) (cr_idx r).
Proof.
  intros n bonds threads keys r HB P R. destruct (cluster_main n threads keys r (pairs_perm n _ _ P HB) R) as [C _]. eapply canonical_connected; [|exact C]. intros. symmetry. apply connected_perm. auto.
Qed.
Theorem C40_keys : forall n bonds threads keys r, (forall p q, In (p, q) bonds -> p < n /\ q < n) -> Permutation bonds (concat threads) ->
  cluster_run n threads keys r -> forall c, c < cr_num r -> cr_keys r c = map (fun i => match keys with Some k => k i | None => i end) (members n (cr_idx r) c).
Proof. intros n bonds threads keys r HB P R c Hc. destruct (cluster_main n threads keys r (pairs_perm n _ _ P HB) R) as [_ K]. apply K. auto. Qed.

(** There is only one canonical numbering. *)
Lemma members_in n idx c i : In i (members n idx c) <-> i < n /\ idx i = c.
Proof. unfold members. rewrite filter_In, in_seq, Nat.eqb_eq. lia. Qed.
Lemma smallest_exists n idx c i : i < n -> idx i = c -> exists k, smallest n idx c k.
Proof.
  intros Hi Hc. assert (G : forall b, (forall k, k < b -> ~ In k (members n idx c)) \/ exists k, smallest n idx c k).
  { induction b as [|b [IH|IH]]; auto; [left; lia|]. destruct (in_dec Nat.eq_dec b (members n idx c)) as [H|H].
    - right. exists b. split; auto. intros j Hj. destruct (le_lt_dec b j); auto. destruct (IH j); auto.
    - left. intros k Hk. destruct (Nat.eq_dec k b) as [-> |]; auto. apply IH. lia. }
  destruct (G n) as [H|H]; auto. destruct (H i Hi). apply members_in. auto.
Qed.
Section Unique.
Variables (n : nat) (bonds : list (nat * nat)).
Lemma same_members num1 idx1 num2 idx2 i : canonical n bonds num1 idx1 -> canonical n bonds num2 idx2 -> i < n -> members n idx1 (idx1 i) = members n idx2 (idx2 i).
Proof.
  intros (A & _) (B & _) Hi. unfold members. apply filter_ext_in. intros j Hj. apply in_seq in Hj.
  pose proof (A j i ltac:(lia) Hi). pose proof (B j i ltac:(lia) Hi). destruct (Nat.eqb_spec (idx1 j) (idx1 i)), (Nat.eqb_spec (idx2 j) (idx2 i)); tauto.
Qed.
Lemma canonical_step num1 idx1 num2 idx2 i c : canonical n bonds num1 idx1 -> canonical n bonds num2 idx2 ->
  (forall c', c' < c -> forall j, j < n -> idx1 j = c' <-> idx2 j = c') -> i < n -> idx1 i = c -> idx2 i = c.
Proof.
  intros C1 C2 IH Hi Ec. destruct (lt_eq_lt_dec (idx2 i) c) as [[H|H]|H]; auto; [rewrite (proj2 (IH _ H i Hi) eq_refl) in Ec; lia|]. exfalso.
  pose proof (proj1 (proj2 C1) i Hi) as B1. pose proof (proj1 (proj2 C2) i Hi) as B2. destruct (proj1 (proj2 (proj2 C2)) c ltac:(lia)) as (j & Hj & Ej).
  destruct (lt_eq_lt_dec (idx1 j) c) as [[H'|H']|H'].
  - rewrite (proj1 (IH _ H' j Hj) eq_refl) in Ej. lia.
  - assert (connected bonds i j) by (apply (proj1 C1); auto; lia). assert (idx2 i = idx2 j) by (apply (proj1 C2); auto). lia.
  - pose proof (proj1 (proj2 C1) j Hj) as B3. pose proof (same_members _ _ _ _ i C1 C2 Hi) as Mi. pose proof (same_members _ _ _ _ j C1 C2 Hj) as Mj. rewrite Ec in Mi. rewrite Ej in Mj.
    destruct (smallest_exists n idx1 c i Hi Ec) as (x & X). destruct (smallest_exists n idx1 (idx1 j) j Hj eq_refl) as (y & Y).
    assert (X' : smallest n idx2 (idx2 i) x) by (unfold smallest in *; rewrite <- Mi; auto). assert (Y' : smallest n idx2 c y) by (unfold smallest in *; rewrite <- Mj; auto).
    pose proof (proj2 (proj2 (proj2 C1)) c (idx1 j) x y ltac:(lia) X Y) as D1. pose proof (proj2 (proj2 (proj2 C2)) c (idx2 i) y x ltac:(lia) Y' X') as D2.
    unfold size in *. rewrite Mi, Mj in D1. lia.
Qed.
Lemma canonical_num num1 idx1 num2 idx2 : canonical n bonds num1 idx1 -> canonical n bonds num2 idx2 -> (forall i, i < n -> idx1 i = idx2 i) -> num1 = num2.
Proof.
  intros C1 C2 E. destruct (lt_eq_lt_dec num1 num2) as [[H|H]|H]; auto; exfalso.
  - destruct (proj1 (proj2 (proj2 C2)) num1 H) as (i & Hi & Ei). pose proof (proj1 (proj2 C1) i Hi). rewrite E in H0 by auto. lia.
  - destruct (proj1 (proj2 (proj2 C1)) num2 H) as (i & Hi & Ei). pose proof (proj1 (proj2 C2) i Hi). rewrite <- E in H0 by auto. lia.
Qed.
End Unique.
Theorem C40_unique : forall n bonds num1 idx1 num2 idx2, canonical n bonds num1 idx1 -> canonical n bonds num2 idx2 -> num1 = num2 /\ forall i, i < n -> idx1 i = idx2 i.
Proof.
  intros n bonds num1 idx1 num2 idx2 C1 C2. assert (G : forall c, forall i, i < n -> idx1 i = c <-> idx2 i = c).
  { induction c as [c IH] using lt_wf_ind. intros i Hi. split; intros E; [eapply canonical_step; [exact C1|exact C2| | |]; eauto|eapply canonical_step; [exact C2|exact C1| | |]; eauto].
    intros c' Hc' j Hj. symmetry. apply IH; auto. }
  assert (E : forall i, i < n -> idx1 i = idx2 i) by (intros i Hi; symmetry; apply G; auto). split; auto. eapply canonical_num; eauto.
Qed.
(** Hence the whole result is independent of the distribution over threads, the interleaving and the representatives. *)
Theorem C40_schedule_independent : forall n bonds threads1 threads2 keys r1 r2, (forall p q, In (p, q) bonds -> p < n /\ q < n) ->
  Permutation bonds (concat threads1) -> Permutation bonds (concat threads2) -> cluster_run n threads1 keys r1 -> cluster_run n threads2 keys r2 ->
  cr_num r1 = cr_num r2 /\ (forall i, i < n -> cr_idx r1 i = cr_idx r2 i) /\ (forall c, c < cr_num r1 -> cr_keys r1 c = cr_keys r2 c).
Proof.
  intros n bonds t1 t2 keys r1 r2 HB P1 P2 R1 R2. pose proof (C40_numbering _ _ _ _ _ HB P1 R1) as C1. pose proof (C40_numbering _ _ _ _ _ HB P2 R2) as C2.
  destruct (C40_unique _ _ _ _ _ _ C1 C2) as [E1 E2]. split; auto. split; auto. intros c Hc. rewrite (C40_keys _ _ _ _ _ HB P1 R1) by auto. rewrite (C40_keys _ _ _ _ _ HB P2 R2) by lia. f_equal.
  unfold members. apply filter_ext_in. intros i Hi. apply in_seq in Hi. rewrite E2 by lia. auto.
Qed.

(** Five points, bonds 3-4 and 0-1 and 4-3 handled by two threads: clusters {0,1}, {3,4}, {2}. *)
Definition ex_bonds : list (list (nat * nat)) := [[(3, 4); (0, 1)]; [(4, 3)]].
Definition ex_labels : labels := labelled 5 (fun i => match i with 1 => 0 | 4 => 3 | _ => i end) 5.
Lemma run1_sched {A} k m (p : prog A) a : snd (sched (repeat 0 k) m [p]) = [Ret a] -> run1 m p (fst (sched (repeat 0 k) m [p])) a.
Proof. intros E. unfold run1. pose proof (sched_star (repeat 0 k) m [p]) as S. rewrite (surjective_pairing (sched _ _ _)), E in S. exact S. Qed.
Example C40_ex : exists r, cluster_run 5 ex_bonds (Some (fun i => 10 * i)) r /\ cr_num r = 3 /\ map (cr_idx r) (seq 0 5) = [0; 0; 2; 1; 1] /\ map (cr_keys r) [0; 1; 2] = [[0; 10]; [30; 40]; [20]].
Proof.
  set (s1 := sched (repeat 1 8 ++ repeat 0 200 ++ repeat 1 200) dset_init (map bonds_prog ex_bonds)).
  set (p1 := label_pass 5 (seq 0 5) (labels_init 5)). set (s2 := sched (repeat 0 100) (fst s1) [p1]).
  assert (E2 : exists st, snd s2 = [Ret st]) by (eexists; vm_compute; reflexivity). destruct E2 as [st E2].
  assert (ST : st = match snd s2 with [Ret st] => st | _ => labels_init 0 end) by (rewrite E2; auto).
  set (p2 := assign_pass (Some (fun i => 10 * i)) st (invert [0; 2; 1]) (seq 0 5) (CR (lb_num st) (fun _ => 0) (fun _ => []))). set (s3 := sched (repeat 0 100) (fst s2) [p2]).
  assert (E3 : exists r, snd s3 = [Ret r]) by (unfold s3, p2; rewrite ST; eexists; vm_compute; reflexivity). destruct E3 as [r E3].
  assert (ER : r = match snd s3 with [Ret r] => r | _ => CR 0 (fun _ => 0) (fun _ => []) end) by (rewrite E3; auto).
  exists r. split.
  - exists (fst s1), (fst s2), (fst s3), st, [0; 2; 1]. split; [|split; [|split]].
    + unfold merge_run. pose proof (sched_star (repeat 1 8 ++ repeat 0 200 ++ repeat 1 200) dset_init (map bonds_prog ex_bonds)) as S. fold s1 in S. rewrite (surjective_pairing s1) in S.
      replace (map (fun _ => Ret tt) ex_bonds) with (snd s1) by (vm_compute; reflexivity). exact S.
    + apply run1_sched. exact E2.
    + split; [rewrite ST; vm_compute; apply perm_skip, perm_swap|]. rewrite ST. intros a b H. cbn [length] in H. assert (C : (a = 0 /\ b = 1) \/ (a = 0 /\ b = 2) \/ (a = 1 /\ b = 2)) by lia.
      destruct C as [[-> ->]|[[-> ->]|[-> ->]]]; vm_compute; reflexivity.
    + apply run1_sched. exact E3.
  - rewrite ER. unfold s3, p2. rewrite ST. split; [|split]; vm_compute; reflexivity.
Qed.
Print Assumptions C39_components.
Print Assumptions C40_numbering.
Print Assumptions C40_keys.
Print Assumptions C40_unique.
Print Assumptions C40_schedule_independent.
