(** C56: the nematic tensor, order and director. *)
From Verif Require Import RBase HistSpec ParProofs MArrayProofs HistProofs HistProofs2 HistProps MatchEnvProofs LocalDescProps Vec.
From Coq Require Import Permutation Reals ZArith List Lra Lia.
From Verif Require Import NemSpec.
Import ListNotations.
Local Open Scope R_scope.

Theorem C56_reject cols : nem_accepts cols = true <-> cols = 3%nat.
Proof. unfold nem_accepts. destruct (Nat.eqb_spec cols 4); [split; [discriminate|lia]|]. apply Nat.eqb_eq. Qed.

(** * Sums of numbers that may be NaN *)
Lemma fadd_laws : sum_laws (Some 0) fadd.
Proof. split; [|split]; unfold fadd; intros; repeat match goal with x : option R |- _ => destruct x end; f_equal; ring. Qed.
Definition fsum (l : list (option R)) : option R := fold_right fadd (Some 0) l.
Lemma fold_fsum l : sum_of (Some 0) fadd l = fsum l.
Proof.
  destruct fadd_laws as (A & C & U). assert (G : forall l x, fold_left fadd l x = fadd x (fsum l)).
  { clear l. induction l as [|y l IH]; intros x; cbn [fold_left fsum fold_right]; [rewrite C, U; reflexivity|]. rewrite IH, A. reflexivity. }
  unfold sum_of. rewrite G, U. reflexivity.
Qed.
Lemma fsum_perm l l' : Permutation l l' -> fsum l = fsum l'.
Proof.
  destruct fadd_laws as (A & C & U). induction 1; simpl; auto; [congruence| |congruence]. rewrite !A, (C y x). reflexivity.
Qed.
Lemma fsum_some {A} (f : A -> option R) (g : A -> R) l : (forall x, In x l -> f x = Some (g x)) -> fsum (map f l) = Some (total g l).
Proof. induction l as [|x l IH]; simpl; intros H; auto. rewrite H, IH by auto. reflexivity. Qed.
Lemma fsum_none {A} (f : A -> option R) l : (exists x, In x l /\ f x = None) -> fsum (map f l) = None.
Proof. induction l as [|x l IH]; simpl; intros (y & I & E); [destruct I|]. destruct I as [->|I]; [rewrite E; reflexivity|]. rewrite IH by eauto. destruct (f x); reflexivity. Qed.

(** * The accumulation *)
Definition nshape (a : marray (option R)) : Prop := well_formed a /\ ma_shape a = [3; 3]%Z.
Lemma nshape_len a : nshape a -> length (ma_data a) = 9%nat.
Proof. intros ((_ & S & L) & H). rewrite L, S, H. reflexivity. Qed.
Lemma nem_q_len u : length (nem_q u) = 9%nat. Proof. unfold nem_q. destruct (nem_unit u); reflexivity. Qed.
Lemma nem_add_ok u a : nshape a -> nshape (nem_add (nem_q u) a) /\ forall k, (k < 9)%nat -> nth k (ma_data (nem_add (nem_q u) a)) (Some 0) = fadd (nth k (ma_data a) (Some 0)) (nth k (nem_q u) (Some 0)).
Proof.
  intros H. assert (L := nshape_len a H). destruct H as ((V & S & L') & E). assert (Q := nem_q_len u). split.
  - split; [|exact E]. split; [exact V|]. split; [exact S|]. unfold nem_add; simpl. rewrite map_length, combine_length, Q. lia.
  - intros k Hk. unfold nem_add; simpl. rewrite (nth_map_lt _ _ _ (Some 0, Some 0)) by (rewrite combine_length, Q; lia).
    rewrite combine_nth by lia. reflexivity.
Qed.
Lemma nem_zero_ok : nshape nem_zero.
Proof. split; [apply ma_make_wf; repeat constructor; lia|reflexivity]. Qed.
Definition lentry (k : nat) (ls : locals (marray (option R))) : option R := fsum (map (fun e => nth k (ma_data (snd e)) (Some 0)) ls).
Definition lok (ls : locals (marray (option R))) : Prop := Forall (fun e => nshape (snd e)) ls.
Lemma update_entry u t ls : lok ls -> lok (local_update nem_zero (nem_add (nem_q u)) t ls) /\
  forall k, (k < 9)%nat -> lentry k (local_update nem_zero (nem_add (nem_q u)) t ls) = fadd (lentry k ls) (nth k (nem_q u) (Some 0)).
Proof.
  destruct fadd_laws as (A & C & U). induction ls as [|[t' a] ls IH]; intros F; cbn [local_update].
  - destruct (nem_add_ok u nem_zero nem_zero_ok) as [G N]. split; [apply Forall_cons; [exact G|apply Forall_nil]|].
    intros k Hk. unfold lentry. cbn [map snd fsum fold_right]. rewrite N by exact Hk. unfold nem_zero; cbn [ma_make ma_data]. rewrite nth_repeat. reflexivity || rewrite !U, (C _ (Some 0)), !U; reflexivity.
  - apply Forall_cons_iff in F as [Ha F]. destruct (Nat.eqb t t').
    + destruct (nem_add_ok u a Ha) as [G N]. split; [constructor; [exact G|exact F]|]. intros k Hk. unfold lentry. cbn [map snd fsum fold_right]. rewrite N by exact Hk.
      rewrite <- !A. f_equal. apply C.
    + destruct (IH F) as [G N]. split; [constructor; [exact Ha|exact G]|]. intros k Hk. specialize (N k Hk). unfold lentry in *. cbn [map snd fsum fold_right]. unfold fsum in N. rewrite N, A. reflexivity.
Qed.
Lemma run_entry us ev : forall ls, lok ls -> lok (run_local nem_zero (fun i => nem_add (nem_q (nth i us v0))) ev ls) /\
  forall k, (k < 9)%nat -> lentry k (run_local nem_zero (fun i => nem_add (nem_q (nth i us v0))) ev ls) = fadd (lentry k ls) (fsum (map (fun i => nth k (nem_q (nth i us v0)) (Some 0)) (map snd ev))).
Proof.
  destruct fadd_laws as (A & C & U). induction ev as [|e ev IH]; intros ls F.
  - split; [exact F|]. intros k _. simpl. rewrite C, U. reflexivity.
  - cbn [run_local fold_left]. destruct (update_entry (nth (snd e) us v0) (fst e) ls F) as [G N]. destruct (IH _ G) as [G2 N2]. split; [exact G2|].
    intros k Hk. etransitivity; [exact (N2 k Hk)|]. rewrite N by exact Hk. cbn [map fsum fold_right]. rewrite A. reflexivity.
Qed.
Lemma reset_entry ls : lok ls -> lok (map (fun p => (fst p, ma_reset (Some 0) (snd p))) ls) /\ forall k, lentry k (map (fun p => (fst p, ma_reset (Some 0) (snd p))) ls) = Some 0.
Proof.
  intros F. split.
  - apply Forall_forall. intros e He. apply in_map_iff in He as ([t a] & <- & He). unfold lok in F. rewrite Forall_forall in F. destruct (F _ He) as [W S]. simpl in *. split; [apply ma_reset_wf; exact W|exact S].
  - intros k. unfold lentry. rewrite map_map. cbn [snd]. induction ls as [|[t a] ls IH]; [reflexivity|]. apply Forall_cons_iff in F as [_ F]. cbn [map fsum fold_right snd].
    rewrite ma_reset_nth. unfold fsum in IH. rewrite IH by exact F. simpl. f_equal. ring.
Qed.

(** Entries of one particle's tensor. *)
Lemma nem_q_single u a b : nonzero u -> (a < 3)%nat -> (b < 3)%nat -> nth (3 * a + b) (nem_q u) (Some 0) = Some (single u a b).
Proof.
  intros N Ha Hb. unfold nem_q, nem_unit. destruct (Reqb_spec (dot u u) 0) as [E|E]; [contradiction|]. set (s := sqrt (dot u u)).
  assert (P : 0 < dot u u) by (assert (0 <= dot u u) by (unfold dot; nra); lra). assert (S : s * s = dot u u) by (apply sqrt_sqrt; lra). assert (S0 : s <> 0) by (intros Z; rewrite Z in S; lra).
  assert (G : forall x y d, 3 / 2 * (/ s * x) * (/ s * y) - d / 2 = (3 * (x * y) / dot u u - d) / 2) by (intros; rewrite <- S; field; exact S0).
  replace 1.5 with (3 / 2) by lra. replace 0.5 with (1 / 2) by lra. unfold single, comp, delta. destruct a as [|[|[|a]]]; [..|lia]; destruct b as [|[|[|b]]]; try lia; simpl; f_equal; rewrite <- G; field; exact S0.
Qed.
Lemma nem_q_none u k : ~ nonzero u -> (k < 9)%nat -> nth k (nem_q u) (Some 0) = None.
Proof.
  intros N Hk. unfold nem_q, nem_unit. destruct (Reqb_spec (dot u u) 0) as [E|E]; [|contradiction]. do 9 (destruct k as [|k]; [reflexivity|]). lia.
Qed.
Definition nonzero_dec u : {nonzero u} + {~ nonzero u}.
Proof. unfold nonzero. destruct (Req_EM_T (dot u u) 0); [right|left]; tauto. Defined.
Lemma total_map {A B} (g : A -> B) (f : B -> R) l : total f (map g l) = total (fun x => f (g x)) l.
Proof. unfold total. induction l; simpl; auto. rewrite IHl. reflexivity. Qed.
Lemma total_ext {A} (f g : A -> R) l : (forall x, In x l -> f x = g x) -> total f l = total g l.
Proof. unfold total. induction l; simpl; intros H; auto. rewrite H, IHl by auto. reflexivity. Qed.
Lemma all_num_map (l : list R) : all_num (map Some l) = Some l.
Proof. induction l; simpl; auto. rewrite IHl. reflexivity. Qed.

(** One call, whatever the thread-local arrays left behind by earlier calls: the outcome. *)
Definition outcome (solver : list R -> option ((R * vec3) * (R * vec3) * (R * vec3))) (us : list vec3) (s' : nem) : Prop :=
  lok (ne_locals s') /\ ne_n s' = length us /\ length (ne_t s') = 9%nat /\
  (forall i, (i < length us)%nat -> nth i (ne_pt s') [] = nem_q (nth i us v0)) /\ length (ne_pt s') = length us /\
  (us <> [] -> Forall nonzero us -> ne_t s' = map Some (entries (tensor us)) /\
     match solver (entries (tensor us)) with
     | Some (_, (l, v)) => ne_order s' = Some l /\ ne_dir s' = Some v
     | None => ne_order s' = Some 0 /\ ne_dir s' = Some (V3 0 0 1)
     end) /\
  (us = [] \/ Exists (fun u => ~ nonzero u) us -> ne_t s' = repeat None 9).
Lemma compute_outcome solver s us ev ev2 : lok (ne_locals s) -> execution 0 (length us) ev -> execution 0 9 ev2 ->
  exists s', nem_compute solver s us ev ev2 = Some s' /\ outcome solver us s'.
Proof.
  intros F EV EV2. unfold nem_compute. cbv zeta. destruct (reset_entry _ F) as [F0 Z0]. set (ls0 := map _ (ne_locals s)) in *.
  destruct (run_entry us ev ls0 F0) as [F1 N1]. set (ls1 := run_local _ _ ev ls0) in *.
  destruct (C16_reduce_into_zeroed (Some 0) fadd (map snd ls1) ev2 [3; 3]%Z) as (r & E & Sr & Dr).
  { exact fadd_laws. } { repeat constructor; lia. }
  { apply Forall_forall. intros a Ha. apply in_map_iff in Ha as (e & <- & He). unfold lok in F1. rewrite Forall_forall in F1. destruct (F1 e He) as [W S]. split; [exact W|]. destruct W as (_ & -> & _). rewrite S. reflexivity. }
  { exact EV2. }
  change (ts_reduce_into (Some 0) fadd (map snd ls1) ev2 nem_zero) with (ts_reduce_into (Some 0) fadd (map snd ls1) ev2 (ma_make (Some 0) [3; 3]%Z)). rewrite E.
  assert (Wr : well_formed r).
  { destruct (ts_reduce_spec (Some 0) fadd fadd_laws (map snd ls1) ev2 nem_zero (proj1 nem_zero_ok)) as (r2 & E2 & W2 & _).
    - apply Forall_forall. intros a Ha. apply in_map_iff in Ha as (e & <- & He). unfold lok in F1. rewrite Forall_forall in F1. destruct (F1 e He) as [W S]. split; [exact W|]. destruct W as (_ & -> & _). rewrite S. reflexivity.
    - exact EV2.
    - change nem_zero with (ma_make (Some 0) [3; 3]%Z) in E2. rewrite E in E2. injection E2 as <-. exact W2. }
  assert (Lr : length (ma_data r) = 9%nat) by (apply nshape_len; split; assumption).
  apply execution_perm in EV.
  assert (Er : forall k, (k < 9)%nat -> nth k (ma_data r) (Some 0) = fsum (map (fun u => nth k (nem_q u) (Some 0)) us)).
  { intros k Hk. rewrite Dr by exact Hk. rewrite fold_fsum. rewrite map_map. change (fsum (map (fun x => nth k (ma_data (snd x)) (Some 0)) ls1)) with (lentry k ls1).
    rewrite N1, Z0 by exact Hk. destruct fadd_laws as (_ & _ & U). rewrite U. rewrite (fsum_perm _ (map (fun i => nth k (nem_q (nth i us v0)) (Some 0)) (range 0 (length us)))) by (apply Permutation_map; exact EV).
    f_equal. unfold range. rewrite Nat.sub_0_r. rewrite <- (map_map (fun i => nth i us v0) (fun u => nth k (nem_q u) (Some 0))). f_equal. rewrite map_nth_seq, skipn_O, firstn_all by (simpl; lia); reflexivity. }
  set (t := map _ (ma_data r)).
  assert (Lt : length t = 9%nat) by (unfold t; rewrite map_length; exact Lr).
  destruct (match all_num t with Some q => _ | None => _ end) as [o d] eqn:EO.
  eexists. split; [reflexivity|].
  assert (Pt : let pt := fold_left (fun rows e => put rows (snd e) (nem_q (nth (snd e) us v0))) ev (repeat (repeat (Some 0) 9) (length us)) in
    (forall i, (i < length us)%nat -> nth i pt [] = nem_q (nth i us v0)) /\ length pt = length us).
  { cbv zeta. assert (Eq : forall rows, fold_left (fun rows e => put rows (snd e) (nem_q (nth (snd e) us v0))) ev rows = fold_left (fun rows k => put rows k (nem_q (nth k us v0))) (map snd ev) rows).
    { clear. induction ev as [|e ev IH]; intros rows; simpl; auto. }
    rewrite Eq. destruct (put_all (fun k => nem_q (nth k us v0)) (map snd ev) [] (repeat (repeat (Some 0) 9) (length us))) as [L N].
    { intros k Hk. rewrite repeat_length. apply (Permutation_in _ EV) in Hk. unfold range in Hk. apply in_seq in Hk. lia. }
    rewrite repeat_length in L. split; [|exact L]. intros i Hi. rewrite N. replace (existsb (Nat.eqb i) (map snd ev)) with true; [reflexivity|]. symmetry.
    apply existsb_exists. exists i. split; [|apply Nat.eqb_refl]. apply (Permutation_in _ (Permutation_sym EV)). unfold range. apply in_seq. lia. }
  cbv zeta in Pt. destruct Pt as [P1 P2].
  split; [|split; [|split; [|split; [|split; [|split]]]]].
  all: cbn [ne_locals ne_n ne_t ne_pt ne_order ne_dir].
  - exact F1.
  - reflexivity.
  - exact Lt.
  - exact P1.
  - exact P2.
  - intros NE NZ. rewrite Forall_forall in NZ. assert (Pn : 0 < INR (length us)) by (apply lt_0_INR; destruct us; [congruence|simpl; lia]).
    assert (T : t = map Some (entries (tensor us))).
    { apply (nth_ext _ _ None None); [rewrite Lt, map_length; reflexivity|]. rewrite Lt. intros k Hk. unfold t. rewrite (nth_map_lt _ _ _ (Some 0)) by (rewrite Lr; exact Hk). rewrite Er by exact Hk.
      assert (exists a b, (a < 3)%nat /\ (b < 3)%nat /\ k = (3 * a + b)%nat) as (a & b & Ha & Hb & ->).
      { exists (k / 3)%nat, (k mod 3)%nat. split; [apply Nat.div_lt_upper_bound; lia|]. split; [apply Nat.mod_upper_bound; lia|]. apply Nat.div_mod. lia. }
      rewrite (fsum_some _ (fun u => single u a b)) by (intros; apply nem_q_single; auto).
      destruct (Nat.eqb_spec (length us) 0) as [Z|Z]; [rewrite Z in Pn; simpl in Pn; lra|].
      assert (En : nth (3 * a + b) (map Some (entries (tensor us))) None = Some (tensor us a b)) by (destruct a as [|[|[|a]]]; [..|lia]; destruct b as [|[|[|b]]]; try lia; reflexivity).
      rewrite En. f_equal. unfold tensor, mean. field. lra. }
    split; [exact T|]. rewrite T, all_num_map in EO. destruct (solver (entries (tensor us))) as [[[e1 e2] [l v]]|]; injection EO as <- <-; split; reflexivity.
  - intros Bad. apply (nth_ext _ _ None None); [rewrite Lt; reflexivity|]. rewrite Lt. intros k Hk. rewrite nth_repeat. unfold t. rewrite (nth_map_lt _ _ _ (Some 0)) by (rewrite Lr; exact Hk). rewrite Er by exact Hk.
    destruct Bad as [->|Bad]; [reflexivity|]. rewrite fsum_none; [reflexivity|]. apply Exists_exists in Bad as (u & I & N). exists u. split; [exact I|]. apply nem_q_none; auto.
Qed.
Lemma run_lok solver h : Forall ni_ok h -> forall s, lok (ne_locals s) -> exists s', nem_run solver s h = Some s' /\ lok (ne_locals s').
Proof.
  induction 1 as [|f h [E1 E2] F IH]; intros s L; [exists s; split; [reflexivity|exact L]|]. cbn [nem_run].
  destruct (compute_outcome solver s (ni_us f) (ni_ev f) (ni_ev2 f) L E1 E2) as (s' & E & O & _). rewrite E. apply IH. exact O.
Qed.
Lemma run_last solver h us ev ev2 s1 s0 s : nem_run solver s1 h = Some s0 -> nem_compute solver s0 us ev ev2 = Some s -> nem_run solver s1 (h ++ [NI us ev ev2]) = Some s.
Proof.
  revert s1. induction h as [|f h IH]; intros s1 R0 E; cbn [nem_run app ni_us ni_ev ni_ev2] in *; [injection R0 as ->; rewrite E; reflexivity|].
  destruct (nem_compute solver s1 _ _ _); [apply IH; assumption|discriminate].
Qed.
(** After any history of calls and for any schedule: the particle tensors are those of the last call, the tensor is the average of
    (3 u u^T - 1)/2 over the orientations of the last call made unit vectors; NaN everywhere when there is none or one is zero. *)
Theorem C56_tensor solver h us ev ev2 : Forall ni_ok h -> execution 0 (length us) ev -> execution 0 9 ev2 ->
  exists s, nem_run solver nem_new (h ++ [NI us ev ev2]) = Some s /\ ne_n s = length us /\
    (us <> [] -> Forall nonzero us -> ne_t s = map Some (entries (tensor us)) /\
       forall i a b, (i < length us)%nat -> (a < 3)%nat -> (b < 3)%nat -> nth (3 * a + b) (nth i (ne_pt s) []) None = Some (single (nth i us v0) a b)) /\
    (us = [] \/ Exists (fun u => ~ nonzero u) us -> ne_t s = repeat None 9).
Proof.
  intros F E1 E2. destruct (run_lok solver h F nem_new) as (s0 & R0 & L0); [constructor|].
  destruct (compute_outcome solver s0 us ev ev2 L0 E1 E2) as (s & E & O1 & O2 & O3 & O4 & O5 & O6 & O7). exists s. split.
  { exact (run_last _ _ _ _ _ _ _ _ R0 E). }
  split; [exact O2|]. split; [|exact O7]. intros NE NZ. split; [apply O6; assumption|]. intros i a b Hi Ha Hb. rewrite O4 by exact Hi.
  rewrite (nth_indep _ None (Some 0)) by (rewrite nem_q_len; lia). apply nem_q_single; auto. rewrite Forall_forall in NZ. apply NZ, nth_In; exact Hi.
Qed.

(** * The tensor *)
Lemma dot_nonneg u : 0 <= dot u u. Proof. unfold dot. nra. Qed.
Lemma nonzero_pos u : nonzero u -> 0 < dot u u. Proof. unfold nonzero. pose proof (dot_nonneg u). lra. Qed.
Lemma total_plus {A} (f g : A -> R) l : total (fun x => f x + g x) l = total f l + total g l.
Proof. unfold total. induction l; simpl; [lra|]. rewrite IHl. lra. Qed.
Lemma total_scale {A} c (f : A -> R) l : total (fun x => c * f x) l = c * total f l.
Proof. unfold total. induction l; simpl; [lra|]. rewrite IHl. lra. Qed.
Lemma mean_plus {A} (f g : A -> R) l : mean (fun x => f x + g x) l = mean f l + mean g l.
Proof. unfold mean. rewrite total_plus. unfold Rdiv. ring. Qed.
Lemma mean_scale {A} c (f : A -> R) l : mean (fun x => c * f x) l = c * mean f l.
Proof. unfold mean. rewrite total_scale. unfold Rdiv. ring. Qed.
Lemma mean_ext {A} (f g : A -> R) l : (forall x, In x l -> f x = g x) -> mean f l = mean g l.
Proof. intros H. unfold mean. rewrite (total_ext f g) by exact H. reflexivity. Qed.
Lemma mean_const {A} c (l : list A) : l <> [] -> mean (fun _ => c) l = c.
Proof.
  intros H. unfold mean. assert (T : total (fun _ : A => c) l = INR (length l) * c).
  { clear H. unfold total. induction l as [|x l IH]; [simpl; ring|]. cbn [fold_right length]. rewrite IH, S_INR. ring. }
  rewrite T. field. destruct l; [congruence|]. apply not_0_INR. simpl. lia.
Qed.
Theorem C56_symmetric us a b : tensor us a b = tensor us b a.
Proof. unfold tensor. apply mean_ext. intros u _. unfold single, delta. rewrite (Nat.eqb_sym a b). f_equal. f_equal. f_equal. ring. Qed.
Theorem C56_traceless us : Forall nonzero us -> tensor us 0 0 + tensor us 1 1 + tensor us 2 2 = 0.
Proof.
  intros H. rewrite Forall_forall in H. unfold tensor. rewrite <- !mean_plus. rewrite (mean_ext _ (fun _ => 0 * 0)).
  - rewrite mean_scale. ring.
  - intros u I. specialize (H u I). unfold single, delta, comp; simpl. unfold dot in *. unfold nonzero, dot in H. field. exact H.
Qed.
Lemma form_linear us m : form (tensor us) m = mean (fun u => form (single u) m) us.
Proof.
  unfold form, apply, row, dot; simpl. unfold tensor.
  symmetry. rewrite (mean_ext _ (fun u => vx m * vx m * single u 0 0 + (vx m * vy m * single u 0 1 + (vx m * vz m * single u 0 2 + (vy m * vx m * single u 1 0 + (vy m * vy m * single u 1 1 + (vy m * vz m * single u 1 2 +
    (vz m * vx m * single u 2 0 + (vz m * vy m * single u 2 1 + vz m * vz m * single u 2 2))))))))).
  - rewrite !mean_plus, !mean_scale. ring.
  - intros; ring.
Qed.
Lemma along_sq m u : nonzero u -> along m u * along m u = dot m u * dot m u / dot u u.
Proof.
  intros N. apply nonzero_pos in N. unfold along. assert (S := sqrt_sqrt (dot u u)). assert (P := sqrt_lt_R0 _ N). set (s := sqrt (dot u u)) in *.
  rewrite <- S by lra. field. lra.
Qed.
Lemma form_single m u : unitv m -> nonzero u -> form (single u) m = (3 * (along m u * along m u) - 1) / 2.
Proof.
  intros U N. rewrite along_sq by exact N. apply nonzero_pos in N. unfold form, apply, row, single, delta, comp; simpl.
  transitivity ((3 * (dot m u * dot m u) / dot u u - dot m m) / 2); [unfold dot; simpl; field; unfold dot in N; lra|]. rewrite U. field. lra.
Qed.
Lemma cauchy m u : dot m u * dot m u <= dot m m * dot u u.
Proof.
  unfold dot. set (a := vx m). set (b := vy m). set (c := vz m). set (x := vx u). set (y := vy u). set (z := vz u).
  assert (A := Rle_0_sqr (a * y - b * x)). assert (B := Rle_0_sqr (a * z - c * x)). assert (C := Rle_0_sqr (b * z - c * y)). unfold Rsqr in *. nra.
Qed.
Lemma along_bound m u : unitv m -> nonzero u -> 0 <= along m u * along m u <= 1.
Proof.
  intros U N. split; [nra|]. rewrite along_sq by exact N. assert (C := cauchy m u). rewrite U in C. apply nonzero_pos in N.
  apply (Rmult_le_reg_r (dot u u)); [exact N|]. unfold Rdiv. rewrite Rmult_assoc, Rinv_l by lra. lra.
Qed.
Definition parallel (m u : vec3) : Prop := exists c, u = vscale c m.
Lemma along_one m u : unitv m -> nonzero u -> (along m u * along m u = 1 <-> parallel m u).
Proof.
  intros U N. rewrite along_sq by exact N. assert (P := nonzero_pos u N). split.
  - intros H. exists (dot m u). assert (E : dot m u * dot m u = dot u u).
    { apply (Rmult_eq_reg_r (/ dot u u)); [|apply Rinv_neq_0_compat; lra]. fold (dot m u * dot m u / dot u u). rewrite H. field. lra. }
    set (d := vsub u (vscale (dot m u) m)). assert (Z : dot d d = 0).
    { transitivity (dot u u - 2 * (dot m u * dot m u) + dot m u * dot m u * dot m m); [unfold d, dot, vsub, vscale; simpl; ring|]. rewrite U, E. ring. }
    assert (D : vx d = 0 /\ vy d = 0 /\ vz d = 0).
    { unfold dot in Z. assert (A := Rle_0_sqr (vx d)). assert (B := Rle_0_sqr (vy d)). assert (C := Rle_0_sqr (vz d)). unfold Rsqr in *. repeat split; apply Rsqr_0_uniq; unfold Rsqr; lra. }
    destruct D as (D1 & D2 & D3). unfold d, vsub, vscale in *; simpl in *. apply vec_eq; simpl; lra.
  - intros (c & ->). assert (C : dot m (vscale c m) = c * dot m m) by (unfold dot, vscale; simpl; ring). assert (Q : dot (vscale c m) (vscale c m) = c * c * dot m m) by (unfold dot, vscale; simpl; ring).
    rewrite C, Q, U in *. field. intros Z. subst c. lra.
Qed.
Lemma mean_le {A} (f : A -> R) l c : l <> [] -> (forall x, In x l -> f x <= c) -> mean f l <= c /\ (mean f l = c <-> forall x, In x l -> f x = c).
Proof.
  intros NE H. assert (P : 0 < INR (length l)) by (apply lt_0_INR; destruct l; [congruence|simpl; lia]).
  assert (M : mean f l = c - mean (fun x => c - f x) l).
  { rewrite (mean_ext (fun x => c - f x) (fun x => c + -1 * f x)) by (intros; ring). rewrite mean_plus, mean_scale, mean_const by exact NE. ring. }
  assert (T : 0 <= total (fun x => c - f x) l /\ (total (fun x => c - f x) l = 0 <-> forall x, In x l -> f x = c)).
  { clear -H. unfold total. induction l as [|x l IH]; simpl; [split; [lra|]; split; [intros _ x []|reflexivity]|].
    destruct IH as [I1 I2]; [intros; apply H; right; auto|]. pose proof (H x (or_introl eq_refl)). split; [lra|]. split.
    - intros E y [<-|Hy]; [lra|]. apply I2; [lra|exact Hy].
    - intros E. rewrite (E x (or_introl eq_refl)). rewrite (proj2 I2); [ring|]. intros; apply E; right; auto. }
  destruct T as [T1 T2]. rewrite M. unfold mean. set (t := total _ _) in *.
  assert (Q : 0 <= t / INR (length l)) by (apply Rmult_le_pos; [exact T1|left; apply Rinv_0_lt_compat; exact P]). split; [lra|]. rewrite <- T2. split; intros E.
  - assert (Z : t / INR (length l) = 0) by lra. apply (Rmult_eq_reg_r (/ INR (length l))); [|apply Rinv_neq_0_compat; lra]. rewrite Rmult_0_l. exact Z.
  - rewrite E. unfold Rdiv. ring.
Qed.
(** Along every unit vector the tensor is the average of (3 cos^2 - 1)/2: between -1/2 and 1, 1 exactly when all orientations are parallel
    to it, -1/2 exactly when all are perpendicular. *)
Theorem C56_form us m : us <> [] -> Forall nonzero us -> unitv m ->
  form (tensor us) m = mean (fun u => (3 * (along m u * along m u) - 1) / 2) us /\ - (1 / 2) <= form (tensor us) m <= 1 /\
  (form (tensor us) m = 1 <-> Forall (parallel m) us) /\ (form (tensor us) m = - (1 / 2) <-> Forall (fun u => dot m u = 0) us).
Proof.
  intros NE NZ U. rewrite Forall_forall in NZ.
  assert (E : form (tensor us) m = mean (fun u => (3 * (along m u * along m u) - 1) / 2) us) by (rewrite form_linear; apply mean_ext; intros; apply form_single; auto).
  split; [exact E|]. rewrite E. set (f := fun u => (3 * (along m u * along m u) - 1) / 2).
  assert (B : forall u, In u us -> - (1 / 2) <= f u <= 1) by (intros u I; pose proof (along_bound m u U (NZ u I)); unfold f; lra).
  destruct (mean_le f us 1 NE) as [U1 U2]; [intros; apply B; auto|]. destruct (mean_le (fun u => - f u) us (1 / 2) NE) as [L1 L2]; [intros u I; pose proof (B u I); lra|].
  assert (Neg : mean (fun u => - f u) us = - mean f us) by (rewrite (mean_ext _ (fun u => -1 * f u)) by (intros; ring); rewrite mean_scale; ring).
  rewrite Neg in L1, L2. split; [lra|]. split.
  - rewrite U2, Forall_forall. split; intros H u I; specialize (H u I).
    + apply along_one; auto. unfold f in H. lra.
    + apply along_one in H; auto. unfold f. lra.
  - transitivity (- mean f us = 1 / 2); [lra|]. rewrite L2, Forall_forall. split; intros H u I; specialize (H u I).
    + unfold f in H. assert (Z : along m u * along m u = 0) by lra. rewrite along_sq in Z by auto. pose proof (nonzero_pos u (NZ u I)).
      assert (dot m u * dot m u = 0) by (apply (Rmult_eq_reg_r (/ dot u u)); [rewrite Rmult_0_l; exact Z|apply Rinv_neq_0_compat; lra]). nra.
    + unfold f. rewrite along_sq, H by auto. unfold Rdiv. lra.
Qed.

(** * Order and director *)
Lemma eigen_form Q l1 v1 l2 v2 l3 v3 m : eigen_ok Q ((l1, v1), (l2, v2), (l3, v3)) -> unitv m ->
  exists x y z, x * x + y * y + z * z = 1 /\ form Q m = l1 * (x * x) + l2 * (y * y) + l3 * (z * z).
Proof.
  intros (O & U1 & U2 & U3 & D12 & D13 & D23 & E1 & E2 & E3) Um. exists (dot v1 m), (dot v2 m), (dot v3 m).
  (* v1, v2, v3 is an orthonormal basis: m is the sum of its projections *)
  set (d := vsub m (vadd (vadd (vscale (dot v1 m) v1) (vscale (dot v2 m) v2)) (vscale (dot v3 m) v3))).
  assert (P1 : dot v1 d = 0) by (transitivity (dot v1 m - dot v1 m * dot v1 v1 - dot v2 m * dot v1 v2 - dot v3 m * dot v1 v3); [unfold d, dot, vsub, vadd, vscale; simpl; ring|rewrite U1, D12, D13; ring]).
  assert (P2 : dot v2 d = 0) by (transitivity (dot v2 m - dot v1 m * dot v1 v2 - dot v2 m * dot v2 v2 - dot v3 m * dot v2 v3); [unfold d, dot, vsub, vadd, vscale; simpl; ring|rewrite U2, D12, D23; ring]).
  assert (P3 : dot v3 d = 0) by (transitivity (dot v3 m - dot v1 m * dot v1 v3 - dot v2 m * dot v2 v3 - dot v3 m * dot v3 v3); [unfold d, dot, vsub, vadd, vscale; simpl; ring|rewrite U3, D13, D23; ring]).
  assert (Z : d = v0).
  { set (c := cross v1 v2). assert (Det : dot c v3 * dot c v3 = 1).
    { transitivity (dot v1 v1 * (dot v2 v2 * dot v3 v3 - dot v2 v3 * dot v2 v3) - dot v1 v2 * (dot v1 v2 * dot v3 v3 - dot v2 v3 * dot v1 v3) + dot v1 v3 * (dot v1 v2 * dot v2 v3 - dot v2 v2 * dot v1 v3)).
      - unfold c, cross, dot; simpl; ring.
      - unfold unitv in U1, U2, U3. rewrite U1, U2, U3, D12, D13, D23. ring. }
    assert (N : dot c v3 <> 0) by (intros X; rewrite X in Det; lra).
    assert (K : forall a, dot c v3 * comp d a = 0).
    { intros a. transitivity (dot v1 d * comp (cross v2 v3) a + dot v2 d * comp (cross v3 v1) a + dot v3 d * comp (cross v1 v2) a).
      - unfold c. destruct a as [|[|a]]; unfold comp, dot, cross; simpl; ring.
      - rewrite P1, P2, P3. ring. }
    pose proof (K 0%nat) as K0. pose proof (K 1%nat) as K1. pose proof (K 2%nat) as K2. unfold comp in *.
    apply Rmult_integral in K0 as [K0|K0]; [contradiction|]. apply Rmult_integral in K1 as [K1|K1]; [contradiction|]. apply Rmult_integral in K2 as [K2|K2]; [contradiction|].
    apply vec_eq; simpl; auto. }
  assert (M : m = vadd (vadd (vscale (dot v1 m) v1) (vscale (dot v2 m) v2)) (vscale (dot v3 m) v3)).
  { set (w := vadd (vadd (vscale (dot v1 m) v1) (vscale (dot v2 m) v2)) (vscale (dot v3 m) v3)) in *. unfold d in Z. apply (f_equal (fun v => vadd v w)) in Z.
    transitivity (vadd (vsub m w) w); [apply vec_eq; unfold vadd, vsub; simpl; ring|]. rewrite Z. apply vec_eq; unfold vadd, v0; simpl; ring. }
  set (x := dot v1 m) in *. set (y := dot v2 m) in *. set (z := dot v3 m) in *. unfold unitv in *. split.
  - transitivity (dot m m); [|exact Um]. transitivity (x * dot v1 m + y * dot v2 m + z * dot v3 m); [unfold x, y, z; ring|]. rewrite M at 4. unfold dot, vadd, vscale; simpl; ring.
  - unfold form. assert (A : apply Q m = vadd (vadd (vscale (x * l1) v1) (vscale (y * l2) v2)) (vscale (z * l3) v3)).
    { rewrite M. transitivity (vadd (vadd (vscale x (apply Q v1)) (vscale y (apply Q v2))) (vscale z (apply Q v3))).
      - apply vec_eq; unfold apply, row, dot, vadd, vscale; simpl; ring.
      - rewrite E1, E2, E3. apply vec_eq; unfold vadd, vscale; simpl; ring. }
    rewrite A. transitivity (l1 * (x * dot v1 m) + l2 * (y * dot v2 m) + l3 * (z * dot v3 m)); [unfold dot, vadd, vscale; simpl; ring|]. unfold x, y, z. ring.
Qed.
(** When the solver keeps its promise, the order parameter is the largest value of the tensor along any unit vector, taken along the director;
    it lies between 0 and 1, and is 1 exactly when all orientations are parallel to the director. *)
Theorem C56_order solver h us ev ev2 e : Forall ni_ok h -> execution 0 (length us) ev -> execution 0 9 ev2 -> us <> [] -> Forall nonzero us ->
  solver (entries (tensor us)) = Some e -> eigen_ok (tensor us) e ->
  exists s S n, nem_run solver nem_new (h ++ [NI us ev ev2]) = Some s /\ ne_order s = Some S /\ ne_dir s = Some n /\
    unitv n /\ apply (tensor us) n = vscale S n /\ form (tensor us) n = S /\ (forall m, unitv m -> form (tensor us) m <= S) /\
    0 <= S <= 1 /\ (S = 1 <-> Forall (parallel n) us).
Proof.
  intros F E1 E2 NE NZ ES EO. destruct (run_lok solver h F nem_new) as (s0 & R0 & L0); [constructor|].
  destruct (compute_outcome solver s0 us ev ev2 L0 E1 E2) as (s & E & O1 & O2 & O3 & O4 & O5 & O6 & O7). destruct (O6 NE NZ) as [_ OS]. rewrite ES in OS.
  destruct e as [[[l1 v1] [l2 v2]] [l3 v3]]. destruct OS as [OS OD]. exists s, l3, v3. split.
  { exact (run_last _ _ _ _ _ _ _ _ R0 E). }
  split; [exact OS|]. split; [exact OD|]. assert (Fo := fun m => eigen_form (tensor us) l1 v1 l2 v2 l3 v3 m EO).
  destruct EO as (O & U1 & U2 & U3 & D12 & D13 & D23 & A1 & A2 & A3).
  assert (F1 : forall v l, unitv v -> apply (tensor us) v = vscale l v -> form (tensor us) v = l).
  { intros v l U A. unfold form. rewrite A. transitivity (l * dot v v); [unfold dot, vscale; simpl; ring|]. rewrite U. ring. }
  assert (Mx : forall m, unitv m -> form (tensor us) m <= l3).
  { intros m U. destruct (Fo m U) as (x & y & z & N & ->). assert (0 <= x * x) by nra. assert (0 <= y * y) by nra. assert (0 <= z * z) by nra. assert (0 <= (l3 - l1) * (x * x)) by (apply Rmult_le_pos; lra). assert (0 <= (l3 - l2) * (y * y)) by (apply Rmult_le_pos; lra). replace l3 with (l3 * (x * x + y * y + z * z)) at 2 by (rewrite N; ring). lra. }
  assert (U : unitv v3) by exact U3. assert (Fv := F1 v3 l3 U A3). destruct (C56_form us v3 NE NZ U) as (_ & B & P & _). rewrite Fv in B, P.
  split; [exact U|]. split; [exact A3|]. split; [exact Fv|]. split; [exact Mx|]. split; [|exact P]. split; [|lra].
  assert (T := C56_traceless us NZ). assert (X : forall m, unitv m -> form (tensor us) m <= l3) by exact Mx.
  pose proof (X (V3 1 0 0) ltac:(unfold unitv, dot; simpl; ring)) as X1. pose proof (X (V3 0 1 0) ltac:(unfold unitv, dot; simpl; ring)) as X2. pose proof (X (V3 0 0 1) ltac:(unfold unitv, dot; simpl; ring)) as X3.
  unfold form, apply, row, dot in X1, X2, X3; cbn [vx vy vz] in X1, X2, X3. lra.
Qed.

(** * Invariances *)
(** Only the lines of the orientations matter: any of them may be multiplied by a non-zero number, for instance -1; their order does not matter. *)
Theorem C56_lines us (c : vec3 -> R) : (forall u, In u us -> c u <> 0) -> Forall nonzero us -> forall a b, tensor (map (fun u => vscale (c u) u) us) a b = tensor us a b.
Proof.
  intros H NZ a b. rewrite Forall_forall in NZ. unfold tensor, mean. rewrite map_length, total_map. f_equal. apply total_ext. intros u I. specialize (H u I). pose proof (nonzero_pos u (NZ u I)) as P.
  unfold single. f_equal. f_equal. assert (D : dot (vscale (c u) u) (vscale (c u) u) = c u * c u * dot u u) by (unfold dot, vscale; simpl; ring).
  assert (C : forall k, comp (vscale (c u) u) k = c u * comp u k) by (intros [|[|k]]; reflexivity). rewrite D, !C. field. split; lra || exact H.
Qed.
Theorem C56_permutation us us' a b : Permutation us us' -> tensor us a b = tensor us' a b.
Proof.
  intros P. unfold tensor, mean. rewrite (Permutation_length P). f_equal. unfold total. induction P; simpl; auto; [rewrite IHP; reflexivity|ring|congruence].
Qed.
(** Turning all orientations (any map keeping scalar products) turns the tensor: the value along the turned direction stays. *)
Theorem C56_rotation us (g : vec3 -> vec3) m : (forall u v, dot (g u) (g v) = dot u v) -> us <> [] -> Forall nonzero us -> unitv m ->
  form (tensor (map g us)) (g m) = form (tensor us) m.
Proof.
  intros G NE NZ U. destruct (C56_form us m NE NZ U) as [-> _]. destruct (C56_form (map g us) (g m)) as [-> _].
  - destruct us; [congruence|discriminate].
  - rewrite Forall_forall in *. intros v I. apply in_map_iff in I as (u & <- & I). unfold nonzero. rewrite G. apply NZ; exact I.
  - unfold unitv. rewrite G. exact U.
  - unfold mean. rewrite map_length, total_map. f_equal. apply total_ext. intros u _. unfold along. rewrite !G. reflexivity.
Qed.

(** Hence the order parameter does not change when everything is turned. *)
Theorem C56_rotation_order us (g g' : vec3 -> vec3) e1 e2 l v e1' e2' l' v' : (forall u w, dot (g u) (g w) = dot u w) -> (forall u, g (g' u) = u) -> us <> [] -> Forall nonzero us ->
  eigen_ok (tensor us) (e1, e2, (l, v)) -> eigen_ok (tensor (map g us)) (e1', e2', (l', v')) -> l' = l.
Proof.
  intros G I NE NZ E E'.
  assert (X : forall Q a b c w, eigen_ok Q (a, b, (c, w)) -> unitv w /\ form Q w = c /\ forall m, unitv m -> form Q m <= c).
  { intros Q [a va] [b vb] c w H. assert (Fo := fun m => eigen_form Q a va b vb c w m H). destruct H as (O & _ & _ & U & _ & _ & _ & _ & _ & A). split; [exact U|]. split.
    - unfold form. rewrite A. transitivity (c * dot w w); [unfold dot, vscale; simpl; ring|]. rewrite U. ring.
    - intros m Um. destruct (Fo m Um) as (x & y & z & N & ->). assert (0 <= x * x) by nra. assert (0 <= y * y) by nra.
      assert (0 <= (c - a) * (x * x)) by (apply Rmult_le_pos; lra). assert (0 <= (c - b) * (y * y)) by (apply Rmult_le_pos; lra).
      replace c with (c * (x * x + y * y + z * z)) at 2 by (rewrite N; ring). lra. }
  destruct (X _ _ _ _ _ E) as (U & F & M). destruct (X _ _ _ _ _ E') as (U' & F' & M'). apply Rle_antisym.
  - assert (W : unitv (g' v')) by (unfold unitv in *; rewrite <- G, I; exact U'). rewrite <- F', <- (I v'). rewrite (C56_rotation us g (g' v') G NE NZ W). apply M. exact W.
  - rewrite <- F, <- (C56_rotation us g v G NE NZ U). apply M'. unfold unitv in *. rewrite G. exact U.
Qed.

(** A case meeting the hypotheses: two opposite orientations along z, computed after another call by two threads. *)
Definition ex_us : list vec3 := [V3 0 0 2; V3 0 0 (-1)].
Lemma ex_tensor a b : tensor ex_us a b = match a, b with O, O | 1%nat, 1%nat => - (1 / 2) | 2%nat, 2%nat => 1 | _, _ => tensor ex_us a b end.
Proof. destruct a as [|[|[|a]]]; destruct b as [|[|[|b]]]; try reflexivity; unfold tensor, mean, total, single, ex_us, delta, comp, dot; simpl; field. Qed.
Example C56_ex : let e := ((- (1 / 2), V3 1 0 0), (- (1 / 2), V3 0 1 0), (1, V3 0 0 1)) in
  Forall ni_ok [NI [V3 1 1 0] [(0, 0)]%nat (map (pair 1%nat) (seq 0 9))] /\ execution 0 (length ex_us) [(0, 1); (3, 0)]%nat /\ ex_us <> [] /\ Forall nonzero ex_us /\ eigen_ok (tensor ex_us) e.
Proof.
  cbv zeta. assert (Z : forall a b, a <> b -> (a < 3)%nat -> (b < 3)%nat -> tensor ex_us a b = 0).
  { intros a b N Ha Hb. destruct a as [|[|[|a]]]; [..|lia]; destruct b as [|[|[|b]]]; try lia; unfold tensor, mean, total, single, ex_us, delta, comp, dot; simpl; field. }
  split; [|split; [|split; [|split]]].
  - constructor; [|constructor]. split; [exact (sequential_execution 0 1 0)|exact (sequential_execution 0 9 1)].
  - exists [(0, 1); (1, 2)]%nat. split; [apply (split_node 0 1 2 [(0, 1)%nat] [(1, 2)%nat]); try lia; constructor; lia|]. simpl. apply perm_swap.
  - discriminate.
  - repeat constructor; unfold nonzero, dot; simpl; lra.
  - unfold eigen_ok, unitv, apply, row. rewrite (ex_tensor 0 0), (ex_tensor 1 1), (ex_tensor 2 2), !Z by lia. unfold dot, vscale; simpl. repeat split; try lra; apply vec_eq; simpl; ring.
Qed.
Print Assumptions C56_tensor.
Print Assumptions C56_order.
