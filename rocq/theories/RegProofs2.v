(** The greedy matching and the order in which tuples of points are tried. *)
From Coq Require Import Psatz.
From Verif Require Import MatchEnvSpec MatchEnvProofs QuatSpec RegModel RegSpec.
Local Open Scope R_scope.

(** ** The greedy matching *)
Definition d2 (refs : list vec3) (p : vec3) (i : nat) : R := len_sq (vsub (nth i refs v0) p).
Inductive greedy (refs : list vec3) : list nat -> list vec3 -> list nat -> Prop :=
| greedy_nil u : greedy refs u [] []
| greedy_cons u p t i s : In i u -> (forall j, In j u -> d2 refs p i <= d2 refs p j) -> greedy refs (remove Nat.eq_dec i u) t s -> greedy refs u (p :: t) (i :: s).
Definition cost (refs pts : list vec3) (s : list nat) : R := fold_right Rplus 0 (map (fun ip => len_sq (vsub (nth (fst ip) refs v0) (snd ip))) (combine s pts)).

Lemma len_sq_nonneg v : 0 <= len_sq v. Proof. apply dot_nonneg. Qed.
Lemma len_sq_0 x y : len_sq (vsub x y) = 0 -> x = y.
Proof.
  destruct x as [a b c], y as [d e f]. unfold len_sq, dot. simpl. intros H.
  pose proof (Rle_0_sqr (a - d)). pose proof (Rle_0_sqr (b - e)). pose proof (Rle_0_sqr (c - f)). unfold Rsqr in *.
  f_equal; apply Rminus_diag_uniq, Rsqr_0_uniq; unfold Rsqr; lra.
Qed.
Lemma sorts_first srt ds : sorts srt -> ds <> [] -> exists i d t, srt ds = (i, d) :: t /\ In (i, d) ds /\ forall j e, In (j, e) ds -> d <= e.
Proof.
  intros H Hne. destruct (H ds) as [P S]. destruct (srt ds) as [|[i d] t] eqn:E.
  - symmetry in P. apply Permutation_nil in P. contradiction.
  - exists i, d, t. split; auto. split. { apply (Permutation_in _ (Permutation_sym P)). left; auto. }
    intros j e Hj. apply (Permutation_in _ P) in Hj. destruct Hj as [Hj|Hj]; [injection Hj as <- <-; lra|].
    inversion S as [|? ? _ F]; subst. rewrite Forall_forall in F. apply (F (j, e) Hj).
Qed.
Lemma remove_perm i u : NoDup u -> In i u -> Permutation u (i :: remove Nat.eq_dec i u).
Proof.
  intros Hn Hi. apply NoDup_Permutation; auto.
  - constructor; [apply remove_In|]. clear Hi. induction Hn as [|x u Hx Hu IH]; simpl; [constructor|]. destruct (Nat.eq_dec i x); auto.
    constructor; auto. intros Hc. apply in_remove in Hc. tauto.
  - intros j. split; intros Hj.
    + destruct (Nat.eq_dec i j); [left; auto|right]. apply in_in_remove; auto.
    + destruct Hj as [<-|Hj]; auto. apply in_remove in Hj. tauto.
Qed.
Lemma nodup_remove i u : NoDup u -> NoDup (remove Nat.eq_dec i u).
Proof.
  intros Hu. induction Hu as [|x u Hx Hu IH]; simpl; [constructor|]. destruct (Nat.eq_dec i x); auto.
  constructor; auto. intros Hc. apply in_remove in Hc. tauto.
Qed.
Lemma ref_distances_spec refs p : forall u, (forall i, In i u -> (i < length refs)%nat) -> ref_distances refs u p = Some (map (fun i => (i, d2 refs p i)) u).
Proof.
  intros u Hu. unfold ref_distances. apply omap_some. intros i Hi. rewrite (nth_error_g refs i v0) by auto. reflexivity.
Qed.
Lemma emplace_new vm i r : (forall a b, In (a, b) vm -> a <> i /\ b <> r) -> emplace vm i r = vm ++ [(i, r)].
Proof.
  intros H. unfold emplace. replace (existsb _ vm) with false; auto. symmetry. apply not_true_iff_false. intros E.
  apply existsb_exists in E. destruct E as [[a b] [Hin E]]. destruct (H a b Hin). simpl in E.
  apply orb_prop in E. destruct E as [E|E]; apply Nat.eqb_eq in E; congruence.
Qed.
Lemma tree_loop_spec srt refs : sorts srt -> forall pts r u vm acc, NoDup u -> (forall i, In i u -> (i < length refs)%nat) -> (length pts <= length u)%nat ->
  (forall a b, In (a, b) vm -> ~ In a u /\ (b < r)%nat) ->
  exists s, greedy refs u pts s /\ tree_loop srt refs pts r u vm acc = Some (vm ++ combine s (seq r (length pts)), acc + cost refs pts s).
Proof.
  intros Hs. induction pts as [|p t IH]; intros r u vm acc Hn Hu Hl Hvm; cbn [tree_loop].
  - exists []. split; [constructor|]. simpl. rewrite app_nil_r. unfold cost. simpl. rewrite Rplus_0_r. reflexivity.
  - rewrite ref_distances_spec by auto. destruct (sorts_first srt (map (fun i => (i, d2 refs p i)) u) Hs) as [i [d [l [-> [Hin Hmin]]]]].
    { destruct u; simpl in *; [lia|discriminate]. }
    apply in_map_iff in Hin. destruct Hin as [i' [E Hi]]. injection E as -> <-.
    assert (Hl' : length u = S (length (remove Nat.eq_dec i u))) by (apply (Permutation_length (remove_perm i u Hn Hi))).
    simpl length in Hl. rewrite emplace_new.
    2: { intros a b Hab. destruct (Hvm a b Hab). split; [intros ->; auto|lia]. }
    destruct (IH (S r) (remove Nat.eq_dec i u) (vm ++ [(i, r)]) (acc + d2 refs p i)) as [s [G E]].
    + apply nodup_remove; auto.
    + intros j Hj. apply in_remove in Hj. apply Hu. tauto.
    + lia.
    + intros a b Hab. apply in_app_iff in Hab. destruct Hab as [Hab|[Hab|[]]].
      * destruct (Hvm a b Hab). split; [intros Hc; apply in_remove in Hc; tauto|lia].
      * injection Hab as <- <-. split; [apply remove_In|lia].
    + exists (i :: s). split.
      * constructor; auto. intros j Hj. apply (Hmin j). apply in_map_iff. exists j. auto.
      * rewrite E. cbn [length seq combine]. rewrite <- app_assoc. simpl app. f_equal. f_equal. unfold cost. simpl. unfold d2. ring.
Qed.
Lemma greedy_length refs u pts s : greedy refs u pts s -> length s = length pts.
Proof. induction 1; simpl; auto. Qed.
Lemma greedy_perm refs u pts s : greedy refs u pts s -> NoDup u -> length pts = length u -> Permutation s u.
Proof.
  induction 1 as [u|u p t i s Hi Hm G IH]; intros Hn Hl; simpl in *.
  - destruct u; [constructor|discriminate].
  - pose proof (remove_perm i u Hn Hi) as P. rewrite P. constructor. apply IH; [apply nodup_remove; auto|]. apply Permutation_length in P. simpl in P. lia.
Qed.
Lemma greedy_nearest refs u pts s : greedy refs u pts s -> forall k j, (k < length pts)%nat -> In j u -> ~ In j (firstn k s) ->
  len_sq (vsub (nth (nth k s 0%nat) refs v0) (nth k pts v0)) <= len_sq (vsub (nth j refs v0) (nth k pts v0)).
Proof.
  induction 1 as [u|u p t i s Hi Hm G IH]; intros k j Hk Hj Hnj; simpl in Hk; [lia|].
  destruct k as [|k]; simpl in *; [apply Hm; auto|]. apply IH; [lia| |tauto]. apply in_in_remove; [|auto]. intros ->. tauto.
Qed.
Lemma map_remove_perm (refs : list vec3) i u : NoDup u -> In i u -> Permutation (at_ refs u) (nth i refs v0 :: at_ refs (remove Nat.eq_dec i u)).
Proof. intros Hn Hi. unfold at_. rewrite (Permutation_map _ (remove_perm i u Hn Hi)). reflexivity. Qed.
(** If the points are the unused reference points in some order, the matching is exact. *)
Lemma greedy_exact refs u pts s : greedy refs u pts s -> NoDup u -> Permutation pts (at_ refs u) -> cost refs pts s = 0.
Proof.
  induction 1 as [u|u p t i s Hi Hm G IH]; intros Hn P; [reflexivity|].
  assert (Hp : In p (at_ refs u)) by (apply (Permutation_in _ P); left; auto).
  apply in_map_iff in Hp. destruct Hp as [j [Ej Hj]]. specialize (Hm j Hj) as Hij.
  assert (E0 : d2 refs p i = 0).
  { pose proof (len_sq_nonneg (vsub (nth i refs v0) p)). unfold d2 in *. rewrite Ej in Hij. replace (len_sq (vsub p p)) with 0 in Hij; [lra|]. unfold len_sq, dot; simpl; ring. }
  pose proof (len_sq_0 _ _ E0) as Ei.
  assert (P' : Permutation t (at_ refs (remove Nat.eq_dec i u))).
  { rewrite (map_remove_perm refs i u Hn Hi) in P. rewrite Ei in P. apply (Permutation_cons_inv P). }
  unfold cost in *. simpl. rewrite (IH (nodup_remove i u Hn) P'). unfold d2 in E0. rewrite E0. ring.
Qed.
Lemma at_all (refs : list vec3) : at_ refs (seq 0 (length refs)) = refs.
Proof. apply perm_map_nth. Qed.
Lemma aligned_spec srt refs pts : sorts srt -> length pts = length refs -> pts <> [] ->
  exists s, greedy refs (seq 0 (length refs)) pts s /\ pairing (length refs) s /\ aligned_rmsd srt refs pts = Some (rms refs pts s, map_of s).
Proof.
  intros Hs Hl Hne. unfold aligned_rmsd.
  destruct (tree_loop_spec srt refs Hs pts 0 (seq 0 (length refs)) [] 0) as [s [G E]].
  - apply seq_NoDup.
  - intros i Hi. apply in_seq in Hi. lia.
  - rewrite seq_length. lia.
  - intros a b [].
  - exists s. split; auto. assert (P : pairing (length refs) s) by (apply (greedy_perm refs _ pts); auto; [apply seq_NoDup|rewrite seq_length; auto]).
    split; auto. rewrite E. destruct (Nat.eqb_spec (length pts) 0); [destruct pts; [contradiction|discriminate]|].
    f_equal. rewrite Rplus_0_l. unfold rms, map_of. rewrite (greedy_length _ _ _ _ G). reflexivity.
Qed.
Lemma cost_nonneg refs pts s : 0 <= cost refs pts s.
Proof. unfold cost. induction (combine s pts) as [|x l IH]; simpl; [lra|]. pose proof (len_sq_nonneg (vsub (nth (fst x) refs v0) (snd x))). lra. Qed.
Lemma rms_sq refs pts s : pts <> [] -> rms refs pts s * rms refs pts s * INR (length pts) = cost refs pts s.
Proof.
  intros Hne. assert (0 < INR (length pts)). { apply lt_0_INR. destruct pts; [contradiction|simpl; lia]. }
  unfold rms. rewrite sqrt_sqrt; [unfold cost; field; lra|]. apply Rmult_le_pos; [apply cost_nonneg|]. left. apply Rinv_0_lt_compat. auto.
Qed.
Lemma cost_term refs : forall pts s k, (k < length s)%nat -> (k < length pts)%nat -> d2 refs (nth k pts v0) (nth k s 0%nat) <= cost refs pts s.
Proof.
  unfold cost. induction pts as [|p t IH]; intros [|i s] k Hk Hp; simpl in *; try lia.
  pose proof (cost_nonneg refs t s) as Hc. unfold cost in Hc. pose proof (len_sq_nonneg (vsub (nth i refs v0) p)).
  destruct k as [|k]; [unfold d2; lra|]. specialize (IH s k ltac:(lia) ltac:(lia)). lra.
Qed.

(** ** The tuples tried *)
Fixpoint visits (fuel N k : nat) (comb : list nat) : option (list (list nat)) :=
  match fuel with
  | O => None
  | S f => match next_perm comb with
           | (true, c) => option_map (cons comb) (visits f N k c)
           | (false, c) => match next_comb c N k with Some c' => option_map (cons comb) (visits f N k c') | None => Some [comb] end
           end
  end.
Local Open Scope nat_scope.
Definition perms3 (c : list nat) : list (list nat) :=
  match c with [x; y; z] => [[x; y; z]; [x; z; y]; [y; x; z]; [y; z; x]; [z; x; y]; [z; y; x]] | _ => [] end.
Definition row (N a b c : nat) : list (list nat) := map (fun c' => [a; b; c']) (seq c (N - c)).
Definition rows (N a b : nat) : list (list nat) := flat_map (fun b' => row N a b' (S b')) (seq b (N - 1 - b)).
Definition combs (N a : nat) : list (list nat) := flat_map (fun a' => rows N a' (S a')) (seq a (N - 2 - a)).
Definition from (N a b c : nat) : list (list nat) := row N a b c ++ rows N a (S b) ++ combs N (S a).

Ltac ltb := repeat match goal with |- context [?a <? ?b] => destruct (Nat.ltb_spec a b); [try lia|try lia]; cbn [first_gt app] end.
Lemma next6 x y z : x < y -> y < z ->
  next_perm [x; y; z] = (true, [x; z; y]) /\ next_perm [x; z; y] = (true, [y; x; z]) /\ next_perm [y; x; z] = (true, [y; z; x]) /\
  next_perm [y; z; x] = (true, [z; x; y]) /\ next_perm [z; x; y] = (true, [z; y; x]) /\ next_perm [z; y; x] = (false, [x; y; z]).
Proof. intros H1 H2. unfold next_perm. cbn [first_gt app]. repeat split; ltb; reflexivity. Qed.
Lemma next_comb3 N a b c : a < b -> b < c -> c < N -> next_comb [a; b; c] N 3 =
  if c + 1 <? N then Some [a; b; c + 1] else if b + 1 <? N - 1 then Some [a; b + 1; b + 2] else if a + 1 <? N - 2 then Some [a + 1; a + 2; a + 3] else None.
Proof.
  intros. unfold next_comb. destruct (Nat.eqb_spec N 0); [lia|]. cbn [Nat.eqb orb comb_scan nth firstn app].
  replace (N + 2 - 3 + 1) with N by lia. replace (N + 1 - 3 + 1) with (N - 1) by lia. replace (N + 0 - 3 + 1) with (N - 2) by lia.
  destruct (c + 1 <? N); [reflexivity|]. destruct (b + 1 <? N - 1); [cbn; repeat f_equal; lia|]. destruct (a + 1 <? N - 2); [cbn; repeat f_equal; lia|reflexivity].
Qed.
Lemma from_next N a b c : a < b -> b < c -> c < N -> from N a b c = [a; b; c] :: match next_comb [a; b; c] N 3 with Some [a'; b'; c'] => from N a' b' c' | _ => [] end.
Proof.
  intros Ha Hb Hc. rewrite next_comb3 by auto. unfold from. unfold row at 1. replace (N - c) with (S (N - S c)) by lia. cbn [seq map app]. f_equal.
  destruct (Nat.ltb_spec (c + 1) N) as [H|H].
  { replace (c + 1) with (S c) by lia. reflexivity. }
  replace (N - S c) with 0 by lia. cbn [seq map app]. unfold rows at 1. 
  destruct (Nat.ltb_spec (b + 1) (N - 1)) as [H1|H1].
  { replace (N - 1 - S b) with (S (N - 1 - S (S b))) by lia. cbn [seq flat_map]. rewrite <- app_assoc. replace (b + 1) with (S b) by lia. replace (b + 2) with (S (S b)) by lia. reflexivity. }
  replace (N - 1 - S b) with 0 by lia. cbn [seq flat_map app]. unfold combs at 1.
  destruct (Nat.ltb_spec (a + 1) (N - 2)) as [H2|H2].
  { replace (N - 2 - S a) with (S (N - 2 - S (S a))) by lia. cbn [seq flat_map]. replace (a + 1) with (S a) by lia. replace (a + 2) with (S (S a)) by lia. replace (a + 3) with (S (S (S a))) by lia.
    unfold combs. unfold rows at 1. replace (N - 1 - S (S a)) with (S (N - 1 - S (S (S a)))) by lia. cbn [seq flat_map]. rewrite <- !app_assoc. reflexivity. }
  replace (N - 2 - S a) with 0 by lia. reflexivity.
Qed.
Lemma visits_from N : forall n fuel a b c, a < b -> b < c -> c < N -> length (from N a b c) <= n -> 6 * length (from N a b c) <= fuel ->
  visits fuel N 3 [a; b; c] = Some (flat_map perms3 (from N a b c)).
Proof.
  induction n as [|n IH]; intros fuel a b c Ha Hb Hc Hn Hf; rewrite from_next in * by auto; [simpl in Hn; lia|].
  cbn [length flat_map perms3 app] in *. destruct (next6 a b c Ha Hb) as [N1 [N2 [N3 [N4 [N5 N6]]]]].
  do 6 (destruct fuel as [|fuel]; [lia|]). cbn [visits]. rewrite N1, N2, N3, N4, N5, N6.
  assert (Hnx := next_comb3 N a b c Ha Hb Hc). 
  assert (Hcase : next_comb [a; b; c] N 3 = None \/ exists a' b' c', next_comb [a; b; c] N 3 = Some [a'; b'; c'] /\ a' < b' /\ b' < c' /\ c' < N).
  { rewrite Hnx. destruct (Nat.ltb_spec (c + 1) N); [right; exists a, b, (c + 1); repeat split; auto; lia|].
    destruct (Nat.ltb_spec (b + 1) (N - 1)); [right; exists a, (b + 1), (b + 2); repeat split; auto; lia|].
    destruct (Nat.ltb_spec (a + 1) (N - 2)); [right; exists (a + 1), (a + 2), (a + 3); repeat split; auto; lia|left; auto]. }
  destruct Hcase as [->|[a' [b' [c' [E [A' [B' C']]]]]]]; [reflexivity|]. rewrite E in *. rewrite (IH fuel a' b' c') by (auto; lia). reflexivity.
Qed.
Lemma flat_map_length_le {A B} (f : A -> list B) n : forall l, (forall x, In x l -> length (f x) <= n) -> length (flat_map f l) <= n * length l.
Proof. induction l as [|x l IH]; intros H; simpl; [lia|]. rewrite app_length. pose proof (H x (or_introl eq_refl)). specialize (IH (fun y Hy => H y (or_intror Hy))). nia. Qed.
Lemma combs_length N : length (combs N 0) <= N * N * N.
Proof.
  unfold combs. etransitivity; [apply (flat_map_length_le _ (N * N))|rewrite seq_length; nia].
  intros a _. unfold rows. etransitivity; [apply (flat_map_length_le _ N)|rewrite seq_length; nia].
  intros b _. unfold row. rewrite map_length, seq_length. lia.
Qed.
Lemma from_0 N : 3 <= N -> from N 0 1 2 = combs N 0.
Proof.
  intros H. unfold from, combs. replace (N - 2 - 0) with (S (N - 3)) by lia. cbn [seq flat_map]. replace (N - 2 - 1) with (N - 3) by lia. rewrite app_assoc. f_equal.
  unfold rows at 2. replace (N - 1 - 1) with (S (N - 3)) by lia. cbn [seq flat_map]. unfold rows. replace (N - 1 - 2) with (N - 3) by lia. reflexivity.
Qed.
Lemma in_combs N x : In x (combs N 0) <-> exists a b c, x = [a; b; c] /\ a < b /\ b < c /\ c < N.
Proof.
  unfold combs, rows, row. rewrite in_flat_map. split.
  - intros [a [Ha H]]. apply in_flat_map in H. destruct H as [b [Hb H]]. apply in_map_iff in H. destruct H as [c [<- Hc]].
    rewrite in_seq in *. exists a, b, c. repeat split; lia.
  - intros [a [b [c [-> [H1 [H2 H3]]]]]]. exists a. split; [apply in_seq; lia|]. apply in_flat_map. exists b. split; [apply in_seq; lia|].
    apply in_map_iff. exists c. split; auto. apply in_seq. lia.
Qed.
Lemma nodup_flat_map {A B} (f : A -> list B) : forall l, NoDup l -> (forall x, In x l -> NoDup (f x)) -> (forall x y z, In x l -> In y l -> In z (f x) -> In z (f y) -> x = y) -> NoDup (flat_map f l).
Proof.
  induction 1 as [|x l Hx Hl IH]; intros H1 H2; simpl; [constructor|].
  assert (Hi : NoDup (flat_map f l)) by (apply IH; [intros; apply H1; right; auto|intros a b z Ha Hb; apply H2; right; auto]).
  assert (Hd : forall z, In z (f x) -> ~ In z (flat_map f l)).
  { intros z Hz Hc. apply in_flat_map in Hc. destruct Hc as [y [Hy Hzy]]. rewrite (H2 x y z) in Hx; auto; [left; auto|right; auto]. }
  specialize (H1 x (or_introl eq_refl)). clear IH H2. induction H1 as [|z m Hz Hm IHm]; simpl; auto.
  constructor; [|apply IHm; intros w Hw; apply Hd; right; auto]. rewrite in_app_iff. intros [Hc|Hc]; [auto|]. apply (Hd z); [left|]; auto.
Qed.
Lemma nodup_combs N : NoDup (combs N 0).
Proof.
  unfold combs. apply nodup_flat_map; [apply seq_NoDup| |].
  - intros a _. unfold rows. apply nodup_flat_map; [apply seq_NoDup| |].
    + intros b _. unfold row. apply FinFun.Injective_map_NoDup; [|apply seq_NoDup]. intros c c' E. injection E. auto.
    + intros b b' z _ _ Hz Hz'. unfold row in *. apply in_map_iff in Hz. apply in_map_iff in Hz'. destruct Hz as [c [<- _]], Hz' as [c' [E _]]. injection E. auto.
  - intros a a' z _ _ Hz Hz'. unfold rows, row in *. apply in_flat_map in Hz. apply in_flat_map in Hz'. destruct Hz as [b [_ Hz]], Hz' as [b' [_ Hz']].
    apply in_map_iff in Hz. apply in_map_iff in Hz'. destruct Hz as [c [<- _]], Hz' as [c' [E _]]. injection E. auto.
Qed.
Definition tuples (N : nat) : list (list nat) :=
  match N with 0 => [] | 1 => [[0]] | 2 => [[0; 1]; [1; 0]] | _ => flat_map perms3 (combs N 0) end.
Lemma visits_all N : 0 < N -> visits (6 * (N * N * N) + 6) N (num_pts N) (firstn (num_pts N) [0; 1; 2]) = Some (tuples N).
Proof.
  intros H. destruct N as [|[|[|M]]]; [lia|vm_compute; reflexivity|vm_compute; reflexivity|]. set (N := S (S (S M))) in *.
  change (num_pts N) with 3. cbn [firstn]. change (tuples N) with (flat_map perms3 (combs N 0)).
  rewrite <- from_0 by (unfold N; lia). pose proof (combs_length N) as Hl. rewrite <- from_0 in Hl by (unfold N; lia).
  apply (visits_from N (length (from N 0 1 2))); try lia; unfold N in *; lia.
Qed.
Lemma drawn_tuples N c : 0 < N -> (In c (tuples N) <-> drawn N c).
Proof.
  intros H. destruct N as [|[|[|M]]]; [lia| | |].
  - simpl. unfold drawn. simpl. split.
    + intros [<-|[]]. split; auto. split; [repeat constructor; auto|]. intros i [<-|[]]; auto.
    + intros [Hl [_ Hr]]. destruct c as [|x [|]]; try discriminate. left. specialize (Hr x (or_introl eq_refl)). f_equal. lia.
  - simpl. unfold drawn. simpl. split.
    + intros [<-|[<-|[]]]; (split; [auto|]; split; [repeat constructor; simpl; intuition; lia|]; simpl; intuition; lia).
    + intros [Hl [Hn Hr]]. destruct c as [|x [|y [|]]]; try discriminate. pose proof (Hr x (or_introl eq_refl)). pose proof (Hr y (or_intror (or_introl eq_refl))).
      inversion Hn as [|? ? Hx _]; subst. assert (x <> y) by (intros ->; apply Hx; left; auto).
      destruct (Nat.eq_dec x 0) as [->|]; [left; repeat f_equal; lia|right; left; repeat f_equal; lia].
  - set (N := S (S (S M))) in *. change (tuples N) with (flat_map perms3 (combs N 0)). rewrite in_flat_map. unfold drawn. replace (Nat.min N 3) with 3 by (unfold N; lia). split.
    + intros [x [Hx Hc]]. apply in_combs in Hx. destruct Hx as [a [b [d [-> [H1 [H2 H3]]]]]]. simpl in Hc.
      repeat destruct Hc as [<-|Hc]; try contradiction; (split; [auto|]; split; [repeat constructor; simpl; intuition; lia|simpl; intuition; lia]).
    + intros [Hl [Hn Hr]]. destruct c as [|x [|y [|z [|]]]]; try discriminate.
      pose proof (Hr x (or_introl eq_refl)) as Bx. pose proof (Hr y (or_intror (or_introl eq_refl))) as By. pose proof (Hr z (or_intror (or_intror (or_introl eq_refl)))) as Bz.
      assert (x <> y /\ x <> z /\ y <> z) as [Dxy [Dxz Dyz]].
      { inversion Hn as [|? ? Hx Hn']; subst. inversion Hn' as [|? ? Hy _]; subst. simpl in *. repeat split; intros ->; tauto. }
      destruct (Nat.lt_ge_cases x y), (Nat.lt_ge_cases y z), (Nat.lt_ge_cases x z); try lia;
      [exists [x; y; z]|exists [x; z; y]|exists [z; x; y]|exists [y; x; z]|exists [y; z; x]|exists [z; y; x]]; (split; [apply in_combs; do 3 eexists; split; [reflexivity|lia]|simpl; tauto]).
Qed.
Lemma nodup_tuples N : NoDup (tuples N).
Proof.
  destruct N as [|[|[|M]]]; [constructor|repeat constructor; auto|repeat constructor; simpl; intuition; discriminate|]. set (N := S (S (S M))).
  change (tuples N) with (flat_map perms3 (combs N 0)). apply nodup_flat_map; [apply nodup_combs| |].
  - intros x Hx. apply in_combs in Hx. destruct Hx as [a [b [c [-> [H1 [H2 H3]]]]]]. simpl.
    repeat constructor; simpl; intros Hc; repeat destruct Hc as [E|Hc]; try contradiction; injection E; intros; lia.
  - intros x y z Hx Hy Hz Hz'. apply in_combs in Hx. apply in_combs in Hy. destruct Hx as [a [b [c [-> [H1 [H2 H3]]]]]], Hy as [a' [b' [c' [-> [H1' [H2' H3']]]]]]. simpl in *.
    repeat destruct Hz as [<-|Hz]; try contradiction; repeat destruct Hz' as [E|Hz']; try contradiction; injection E as <- <- <-; try reflexivity; lia.
Qed.
