From Verif Require Import MatchEnvSpec.
Local Open Scope nat_scope.

Definition dflt : env := Env 0 [] false [] rid.
Definition g (s : list env) (i : nat) : env := nth i s dflt.
Definition root (s : list env) (i : nat) : nat := e_ind (g s i).

(** ** Lists *)
Lemma put_length {A} (l : list A) i x : length (put l i x) = length l.
Proof. revert i; induction l; intros [|i]; simpl; auto. Qed.
Lemma nth_put {A} (l : list A) i x j d : i < length l -> nth j (put l i x) d = if j =? i then x else nth j l d.
Proof.
  revert i j. induction l as [|y l IH]; intros [|i] [|j] Hi; simpl in *; auto; try lia. apply IH. lia.
Qed.
Lemma put_same {A} (l : list A) i d : i < length l -> put l i (nth i l d) = l.
Proof. revert i. induction l as [|y l IH]; intros [|i] Hi; simpl in *; auto; try lia. f_equal. apply IH. lia. Qed.
Lemma nth_error_g {A} (l : list A) i d : i < length l -> nth_error l i = Some (nth i l d).
Proof. intros H. apply nth_error_nth'. exact H. Qed.
Lemma list_ext {A} (l m : list A) d : length l = length m -> (forall i, i < length l -> nth i l d = nth i m d) -> l = m.
Proof. intros H1 H2. apply (nth_ext l m d d); auto. Qed.
Lemma nth_map_lt {A B} (f : A -> B) l i d d' : i < length l -> nth i (map f l) d' = f (nth i l d).
Proof. intros H. rewrite (nth_indep _ d' (f d)); [apply map_nth | rewrite map_length; auto]. Qed.
Lemma omap_some {A B} (f : A -> option B) h l : (forall x, In x l -> f x = Some (h x)) -> omap f l = Some (map h l).
Proof.
  induction l as [|x l IH]; intros H; simpl; auto. rewrite (H x (or_introl eq_refl)), IH; auto. intros; apply H; right; auto.
Qed.
Lemma ofold_app {A S} (f : S -> A -> option S) l m s :
  ofold f (l ++ m) s = match ofold f l s with Some s' => ofold f m s' | None => None end.
Proof. revert s. induction l as [|x l IH]; intros s; simpl; auto. destruct (f s x); auto. Qed.
Lemma perm_map_nth {A} (l : list A) d : map (fun i => nth i l d) (seq 0 (length l)) = l.
Proof.
  apply (list_ext _ _ d). { rewrite map_length, seq_length; auto. }
  rewrite map_length, seq_length. intros i Hi. rewrite (nth_map_lt _ _ _ 0); [|rewrite seq_length; auto]. rewrite seq_nth; auto.
Qed.

(** ** Rotations *)
Lemma rapply_id v : rapply rid v = v.
Proof. destruct v; unfold rapply, rid, dot; simpl. vec_ring. Qed.
Lemma rapply_mul a b v : rapply (rmul a b) v = rapply a (rapply b v).
Proof. unfold rapply, rmul, rtrans, dot; simpl. vec_ring. Qed.
Lemma rmul_id m : rmul rid m = m.
Proof. destruct m as [[] [] []]; unfold rmul, rtrans, dot, rid; simpl. f_equal; vec_ring. Qed.
Lemma rapply_sub m x y : vsub (rapply m x) (rapply m y) = rapply m (vsub x y).
Proof. unfold rapply, dot; simpl. vec_ring. Qed.
Lemma orth_len m v : orthonormal m -> len_sq (rapply m v) = len_sq v.
Proof.
  intros [H _]. transitivity (dot v (rapply (rtrans m) (rapply m v))).
  - unfold len_sq, rapply, rtrans, dot; simpl. ring.
  - rewrite <- rapply_mul, H, rapply_id. reflexivity.
Qed.
Lemma orth_trans m : orthonormal m -> orthonormal (rtrans m).
Proof. intros [H1 H2]. split; destruct m as [[] [] []]; unfold rtrans in *; simpl in *; auto. Qed.
Lemma rtrans_id : rtrans rid = rid. Proof. reflexivity. Qed.
Lemma orth_id : orthonormal rid.
Proof. split; rewrite rtrans_id, rmul_id; reflexivity. Qed.
Lemma orth_inv m v : orthonormal m -> rapply m (rapply (rtrans m) v) = v.
Proof. intros [_ H]. rewrite <- rapply_mul, H. apply rapply_id. Qed.
Lemma orth_mul a b : orthonormal a -> orthonormal b -> orthonormal (rmul a b).
Proof.
  assert (Ha : forall a b c, rmul a (rmul b c) = rmul (rmul a b) c).
  { intros [[] [] []] [[] [] []] [[] [] []]. unfold rmul, rtrans, dot; simpl. f_equal; vec_ring. }
  assert (Ht : forall a b, rtrans (rmul a b) = rmul (rtrans b) (rtrans a)).
  { intros [[] [] []] [[] [] []]. unfold rmul, rtrans, dot; simpl. f_equal; vec_ring. }
  intros [A1 A2] [B1 B2]. split; rewrite Ht.
  - rewrite Ha, <- (Ha (rtrans b)), A1, <- Ha, rmul_id. exact B1.
  - rewrite Ha, <- (Ha a), B2. replace (rmul a rid) with a; [exact A2|].
    destruct a as [[] [] []]; unfold rmul, rtrans, dot, rid; simpl. f_equal; vec_ring.
Qed.
Lemma close_sq t v w : (len_sq (vsub v w) < t * t)%R <-> close t v w.
Proof.
  unfold close, norm. fold (len_sq (vsub v w)). replace (t * t)%R with (Rabs t * Rabs t)%R.
  2:{ rewrite <- Rabs_mult. apply Rabs_pos_eq. nra. }
  assert (0 <= Rabs t)%R by apply Rabs_pos. assert (H0 : (0 <= len_sq (vsub v w))%R) by apply dot_nonneg.
  split; intros H1.
  - rewrite <- (sqrt_square (Rabs t)) by auto. apply sqrt_lt_1; auto. nra.
  - rewrite <- (sqrt_sqrt (len_sq (vsub v w))) by auto. assert (0 <= sqrt (len_sq (vsub v w)))%R by apply sqrt_pos. nra.
Qed.

(** ** Environments *)
Definition okv (e : env) : Prop := Permutation (e_vind e) (seq 0 (length (e_vecs e))).
Definition props (e : env) : list vec3 := map (fun r => rapply (e_rot e) (nth r (e_vecs e) v0)) (e_vind e).
Lemma okv_length e : okv e -> length (e_vind e) = length (e_vecs e).
Proof. intros H. apply Permutation_length in H. rewrite seq_length in H. auto. Qed.
Lemma okv_in e r : okv e -> In r (e_vind e) -> r < length (e_vecs e).
Proof. intros H Hi. apply (Permutation_in _ H) in Hi. apply in_seq in Hi. lia. Qed.
Lemma props_length e : okv e -> length (props e) = length (e_vecs e).
Proof. intros H. unfold props. rewrite map_length. apply okv_length; auto. Qed.
Lemma proper_props e : okv e -> proper e = Some (props e).
Proof.
  intros H. unfold proper, props. rewrite (omap_some _ (fun m => rapply (e_rot e) (nth (nth m (e_vind e) 0) (e_vecs e) v0))).
  - f_equal. rewrite <- (okv_length e H). rewrite <- (perm_map_nth (e_vind e) 0) at 2. rewrite map_map. reflexivity.
  - intros m Hm. apply in_seq in Hm. rewrite (nth_error_g (e_vind e) m 0) by (rewrite (okv_length e H); lia).
    rewrite (nth_error_g (e_vecs e) _ v0); auto. apply okv_in; auto. apply nth_In. rewrite (okv_length e H); lia.
Qed.
Lemma props_perm e : okv e -> e_rot e = rid -> Permutation (e_vecs e) (props e).
Proof.
  intros H Hr. unfold props. rewrite Hr. rewrite (map_ext _ (fun r => nth r (e_vecs e) v0)) by (intros; apply rapply_id).
  rewrite <- (perm_map_nth (e_vecs e) v0) at 1. apply Permutation_map. symmetry. exact H.
Qed.
Lemma new_env_ok i gh vs : okv (new_env i gh vs). Proof. apply Permutation_refl. Qed.
Lemma new_env_props i gh vs : props (new_env i gh vs) = vs.
Proof.
  unfold props; simpl. rewrite (map_ext _ (fun r => nth r vs v0)) by (intros; apply rapply_id). apply perm_map_nth.
Qed.

(** ** find, findSet *)
Definition flat (s : list env) : Prop := forall i, i < length s -> root s i < length s /\ root s (root s i) = root s i.
Lemma mfind_flat s c : flat s -> c < length s -> mfind s c = Some (root s c, s).
Proof.
  intros F Hc. destruct (F c Hc) as [Hr Hrr]. unfold mfind.
  assert (Hpos : exists f, length s = S f) by (exists (length s - 1); lia). destruct Hpos as [f Hf].
  assert (Hfo : follow (length s) s c = Some (root s c)).
  { rewrite Hf. cbn [follow]. rewrite (nth_error_g s c dflt Hc). fold (g s c). fold (root s c).
    destruct (Nat.eqb_spec (root s c) c) as [E|E]; [congruence|].
    assert (Hs : forall f, follow f s (root s c) = Some (root s c)).
    { intros [|f']; cbn [follow]; rewrite (nth_error_g s _ dflt Hr); fold (g s (root s c)); fold (root s (root s c)); rewrite Hrr, Nat.eqb_refl; auto. }
    apply Hs. }
  rewrite Hfo, Hf. cbn [compress].
  destruct (Nat.eqb_spec c (root s c)) as [E|E]; [reflexivity|].
  rewrite (nth_error_g s c dflt Hc). fold (g s c). fold (root s c).
  replace (set_ind (g s c) (root s c)) with (g s c) by (unfold root; destruct (g s c); reflexivity).
  unfold g at 1. rewrite put_same by auto. destruct f; cbn [compress]; rewrite Nat.eqb_refl; reflexivity.
Qed.
Definition set_of (s : list env) (m : nat) : list nat := filter (fun i => root s i =? m) (seq 0 (length s)).
Lemma in_set_of s m i : In i (set_of s m) <-> i < length s /\ root s i = m.
Proof. unfold set_of. rewrite filter_In, in_seq, Nat.eqb_eq. split; intros [? ?]; split; auto; lia. Qed.
Lemma find_set_flat s m : flat s -> m < length s -> root s m = m -> find_set s m = Some (set_of s m, s).
Proof.
  intros F Hm Hr. unfold find_set.
  set (f := fun (st : list nat * list env) i => _).
  assert (Hs : forall acc i, i < length s -> f (acc, s) i = Some (if root s i =? m then acc ++ [i] else acc, s)).
  { intros acc i Hi. unfold f; simpl. rewrite (nth_error_g s i dflt Hi). fold (g s i). fold (root s i).
    destruct (F i Hi) as [H1 H2]. rewrite mfind_flat by auto. rewrite H2. reflexivity. }
  assert (H : forall l acc, (forall i, In i l -> i < length s) -> ofold f l (acc, s) = Some (acc ++ filter (fun i => root s i =? m) l, s)).
  { induction l as [|i l IH]; intros acc Hl; cbn [ofold filter]. { rewrite app_nil_r; auto. }
    rewrite Hs by (apply Hl; left; auto). rewrite IH by (intros; apply Hl; right; auto).
    destruct (root s i =? m); [rewrite <- app_assoc|]; reflexivity. }
  rewrite H; [|intros i Hi; apply in_seq in Hi; lia]. simpl. fold (set_of s m).
  assert (Hin : In m (set_of s m)) by (apply in_set_of; auto). destruct (set_of s m); [destruct Hin|]. reflexivity.
Qed.

(** ** Correspondences *)
Lemma find_key (vm : bimap) i j : NoDup (map fst vm) -> In (i, j) vm -> find (fun p => fst p =? i) vm = Some (i, j).
Proof.
  induction vm as [|[a b] vm IH]; simpl; intros Hn Hi; [destruct Hi|]. inversion Hn; subst.
  destruct Hi as [Hi|Hi].
  - injection Hi as -> ->. rewrite Nat.eqb_refl. reflexivity.
  - destruct (Nat.eqb_spec a i) as [-> |]; auto. exfalso. apply H1. apply (in_map fst) in Hi. exact Hi.
Qed.
Lemma find_key' (vm : bimap) i j : NoDup (map snd vm) -> In (i, j) vm -> find (fun p => snd p =? j) vm = Some (i, j).
Proof.
  induction vm as [|[a b] vm IH]; simpl; intros Hn Hi; [destruct Hi|]. inversion Hn; subst.
  destruct Hi as [Hi|Hi].
  - injection Hi as -> ->. rewrite Nat.eqb_refl. reflexivity.
  - destruct (Nat.eqb_spec b j) as [-> |]; auto. exfalso. apply H1. apply (in_map snd) in Hi. exact Hi.
Qed.
Definition sw (p : nat * nat) : nat * nat := (snd p, fst p).
Lemma corr_sym k vm : correspondence k vm -> correspondence k (map sw vm).
Proof.
  intros [H1 H2]. split; rewrite map_map; [exact H2 | exact H1].
Qed.
Lemma bright_swap vm j : bright vm j = bleft (map sw vm) j.
Proof.
  unfold bright, bleft. induction vm as [|[a b] vm IH]; simpl; auto. destruct (b =? j); auto.
Qed.
Lemma corr_left k vm : correspondence k vm -> length vm = k /\ exists f,
  (forall i, i < k -> bleft vm i = Some (f i) /\ In (i, f i) vm /\ f i < k) /\ Permutation (map f (seq 0 k)) (seq 0 k).
Proof.
  intros [H1 H2]. assert (Hl : length vm = k) by (apply Permutation_length in H1; rewrite map_length, seq_length in H1; auto).
  split; auto. exists (fun i => match bleft vm i with Some r => r | None => 0 end).
  assert (Hn : NoDup (map fst vm)) by (eapply Permutation_NoDup; [symmetry; exact H1 | apply seq_NoDup]).
  assert (Hk : forall p, In p vm -> bleft vm (fst p) = Some (snd p)).
  { intros [a b] Hp. unfold bleft. simpl. rewrite (find_key vm a b); auto. }
  assert (Hf : forall i, i < k -> exists r, In (i, r) vm /\ r < k).
  { intros i Hi. assert (Hin : In i (map fst vm)) by (apply (Permutation_in _ (Permutation_sym H1)), in_seq; lia).
    apply in_map_iff in Hin. destruct Hin as [[a b] [E Hp]]. simpl in E; subst a. exists b. split; auto.
    assert (In b (seq 0 k)) by (apply (Permutation_in _ H2); apply (in_map snd) in Hp; exact Hp). apply in_seq in H; lia. }
  split.
  - intros i Hi. destruct (Hf i Hi) as [r [Hr Hrk]]. pose proof (Hk _ Hr) as E; simpl in E; rewrite E. auto.
  - rewrite <- H2 at 2. etransitivity; [apply Permutation_map; symmetry; exact H1|]. rewrite map_map.
    rewrite (map_ext_in _ snd); [reflexivity|]. intros p Hp. rewrite (Hk p Hp). reflexivity.
Qed.

(** ** merge *)
Definition moved (r : nat) (f : nat -> nat) (rot : rotm) (e : env) : env :=
  Env r (e_vecs e) (e_ghost e) (map (fun k => nth (f k) (e_vind e) 0) (seq 0 (length (e_vecs e)))) (rmul rot (e_rot e)).
Lemma reindex_spec view f e k : okv e -> length (e_vecs e) = k -> (forall i, i < k -> view i = Some (f i) /\ f i < k) ->
  reindex view k (e_vind e) = Some (map (fun i => nth (f i) (e_vind e) 0) (seq 0 k)).
Proof.
  intros Ho Hk Hv. unfold reindex. pose proof (okv_length e Ho) as Hl. rewrite (proj2 (Nat.leb_le k (length (e_vind e)))) by lia.
  rewrite (omap_some _ (fun i => nth (f i) (e_vind e) 0)).
  - simpl. rewrite skipn_all2 by lia. rewrite app_nil_r. reflexivity.
  - intros i Hi. apply in_seq in Hi. destruct (Hv i) as [-> Hf]; [lia|]. apply nth_error_g. lia.
Qed.
Lemma moved_ok r f rot e : okv e -> Permutation (map f (seq 0 (length (e_vecs e)))) (seq 0 (length (e_vecs e))) -> okv (moved r f rot e).
Proof.
  intros Ho Hf. unfold okv, moved; simpl. rewrite <- (map_map f (fun j => nth j (e_vind e) 0)).
  etransitivity; [apply Permutation_map; exact Hf|]. rewrite <- (okv_length e Ho) at 1. rewrite perm_map_nth. exact Ho.
Qed.
Lemma moved_props r f rot e k d : okv e -> (forall i, i < length (e_vecs e) -> f i < length (e_vecs e)) -> k < length (e_vecs e) ->
  nth k (props (moved r f rot e)) d = rapply rot (nth (f k) (props e) v0).
Proof.
  intros Ho Hf Hk. unfold props, moved; simpl. rewrite map_map. rewrite (nth_map_lt _ _ _ 0) by (rewrite seq_length; auto).
  rewrite seq_nth by auto. simpl. rewrite rapply_mul. f_equal. rewrite (nth_map_lt _ _ _ 0); auto.
  rewrite (okv_length e Ho). auto.
Qed.

Lemma node_fold view size keep rot r nv : forall nodes s rank, NoDup nodes -> (forall x, In x nodes -> x < length s) -> keep < length s -> root s keep = r ->
  r < length rank -> (forall x, In x nodes -> reindex view size (e_vind (g s x)) = Some (nv x)) ->
  exists s' rank', ofold (node_step view size keep rot) nodes (s, rank) = Some (s', rank') /\ length s' = length s /\
    (length rank' = length rank /\ forall q, q <> r -> nth q rank' 0 = nth q rank 0) /\
    forall i, i < length s -> g s' i = if in_dec Nat.eq_dec i nodes then Env r (e_vecs (g s i)) (e_ghost (g s i)) (nv i) (rmul rot (e_rot (g s i))) else g s i.
Proof.
  induction nodes as [|x nodes IH]; intros s rank Hn Hlt Hk Hr Hrank Hre.
  { exists s, rank. simpl. repeat split; auto. }
  inversion Hn as [|? ? Hx Hn']; subst. cbn [ofold]. unfold node_step at 1. simpl fst; simpl snd.
  assert (Hxl : x < length s) by (apply Hlt; left; auto).
  rewrite (nth_error_g s x dflt Hxl), (nth_error_g s keep dflt Hk). fold (g s x) (g s keep). fold (root s keep).
  rewrite (Hre x (or_introl eq_refl)). rewrite (nth_error_g rank _ 0 Hrank).
  set (e' := Env _ _ _ _ _). set (s1 := put s x e').
  assert (Hg : forall i, g s1 i = if i =? x then e' else g s i) by (intros i; unfold g, s1; apply nth_put; auto).
  assert (Hl1 : length s1 = length s) by apply put_length.
  destruct (IH s1 (put rank (root s keep) (S (nth (root s keep) rank 0)))) as [s' [rank' [H1 [H2 [H3 H4]]]]]; auto.
  - intros y Hy. rewrite Hl1. apply Hlt; right; auto.
  - lia.
  - unfold root at 1. rewrite Hg. destruct (Nat.eqb_spec keep x); [reflexivity|]. reflexivity.
  - rewrite put_length. auto.
  - intros y Hy. rewrite Hg. destruct (Nat.eqb_spec y x) as [-> |]; [contradiction|]. apply Hre; right; auto.
  - exists s', rank'. split; [exact H1|]. rewrite put_length in H3. split; [lia|].
    split. { split; [tauto|]. intros q Hq. rewrite (proj2 H3 q Hq). rewrite nth_put by auto. destruct (Nat.eqb_spec q (root s keep)); [contradiction|auto]. }
    intros i Hi. rewrite H4 by lia. rewrite Hg.
    destruct (in_dec Nat.eq_dec i nodes) as [Hin|Hin]; destruct (in_dec Nat.eq_dec i (x :: nodes)) as [Hin'|Hin'].
    + destruct (Nat.eqb_spec i x) as [-> |]; [contradiction|]. reflexivity.
    + exfalso. apply Hin'; right; auto.
    + destruct Hin' as [-> |]; [|contradiction]. rewrite Nat.eqb_refl. reflexivity.
    + destruct (Nat.eqb_spec i x) as [-> |]; [exfalso; apply Hin'; left; auto|]. reflexivity.
Qed.

Record wf (s : list env) (rank : list nat) : Prop := {
  wf_rank : length s <= length rank;
  wf_flat : flat s;
  wf_ok : forall i, i < length s -> okv (g s i);
  wf_size : forall i j, i < length s -> j < length s -> root s i = root s j -> length (e_vecs (g s i)) = length (e_vecs (g s j)) }.
Lemma absorb_spec view f keep other rot s rank k : wf s rank -> keep < length s -> other < length s ->
  length (e_vecs (g s other)) = k -> (forall i, i < k -> view i = Some (f i) /\ f i < k) ->
  exists s' rank', absorb view k keep other rot (s, rank) = Some (s', rank') /\ length s' = length s /\
    (length rank' = length rank /\ forall q, q <> root s keep -> nth q rank' 0 = nth q rank 0) /\
    forall i, i < length s -> g s' i = if root s i =? root s other then moved (root s keep) f rot (g s i) else g s i.
Proof.
  intros W Hk Ho Hs Hv. destruct W as [Wr Wf Wo Ws]. unfold absorb. simpl fst; simpl snd. rewrite mfind_flat by auto.
  destruct (Wf other Ho) as [Hr Hrr]. rewrite find_set_flat by auto.
  destruct (node_fold view k keep rot (root s keep) (fun x => map (fun i => nth (f i) (e_vind (g s x)) 0) (seq 0 k)) (set_of s (root s other)) s rank)
    as [s' [rank' [H1 [H2 [H3 H4]]]]]; auto.
  - apply NoDup_filter, seq_NoDup.
  - intros x Hx. apply in_set_of in Hx. tauto.
  - destruct (Wf keep Hk). lia.
  - intros x Hx. apply in_set_of in Hx. destruct Hx as [Hx Hxr]. apply reindex_spec; auto. rewrite <- Hs. apply Ws; auto.
  - exists s', rank'. split; [exact H1|]. split; [auto|]. split; [auto|]. intros i Hi. rewrite H4 by auto.
    destruct (in_dec Nat.eq_dec i (set_of s (root s other))) as [Hin|Hin]; rewrite in_set_of in Hin.
    + destruct Hin as [_ E]. rewrite E, Nat.eqb_refl. unfold moved. rewrite (Ws i other) by auto. rewrite Hs. reflexivity.
    + destruct (Nat.eqb_spec (root s i) (root s other)); [exfalso; auto|]. reflexivity.
Qed.

(** What a merge does: one of the two sets is moved to the other. *)
Definition shifted (s s' : list env) (keep other : nat) (f : nat -> nat) (rot : rotm) : Prop :=
  length s' = length s /\ forall i, i < length s -> g s' i = if root s i =? root s other then moved (root s keep) f rot (g s i) else g s i.
Lemma merge_spec s rank a b vm rot k : wf s rank -> a < length s -> b < length s -> length (e_vecs (g s a)) = k -> length (e_vecs (g s b)) = k ->
  correspondence k vm -> exists s' rank', merge (s, rank) a b vm rot = Some (s', rank') /\ length rank' = length rank /\
    exists f, Permutation (map f (seq 0 k)) (seq 0 k) /\
      ((forall i, i < k -> f i < k /\ In (i, f i) vm) /\ shifted s s' a b f rot \/
       (forall i, i < k -> f i < k /\ In (f i, i) vm) /\ shifted s s' b a f (rtrans rot)).
Proof.
  intros W Ha Hb Hka Hkb Hc. unfold merge. simpl fst; simpl snd.
  rewrite (nth_error_g s a dflt Ha), (nth_error_g s b dflt Hb). fold (g s a) (g s b). fold (root s a) (root s b).
  destruct (wf_flat s rank W a Ha) as [Ra _]. destruct (wf_flat s rank W b Hb) as [Rb _]. pose proof (wf_rank s rank W).
  rewrite (nth_error_g rank (root s a) 0) by lia. rewrite (nth_error_g rank (root s b) 0) by lia.
  destruct (Nat.ltb (nth (root s a) rank 0) (nth (root s b) rank 0)).
  - destruct (corr_left k _ (corr_sym k vm Hc)) as [Hl [f [Hf Hp]]]. rewrite map_length in Hl. rewrite Hl.
    destruct (absorb_spec (bright vm) f b a (rtrans rot) s rank k) as [s' [rank' [H1 [H2 [H3 H4]]]]]; auto.
    { intros i Hi. rewrite bright_swap. destruct (Hf i Hi) as [H1 [_ H2]]. auto. }
    exists s', rank'. split; [exact H1|]. split; [tauto|]. exists f. split; auto. right. split; [|split; auto].
    intros i Hi. destruct (Hf i Hi) as [_ [Hin Hlt]]. split; auto. apply in_map_iff in Hin. destruct Hin as [[x y] [E Hin]]. unfold sw in E; simpl in E.
    injection E as <- <-. exact Hin.
  - destruct (corr_left k vm Hc) as [Hl [f [Hf Hp]]]. rewrite Hl.
    destruct (absorb_spec (bleft vm) f a b rot s rank k) as [s' [rank' [H1 [H2 [H3 H4]]]]]; auto.
    { intros i Hi. destruct (Hf i Hi) as [H1 [_ H2]]. auto. }
    exists s', rank'. split; [exact H1|]. split; [tauto|]. exists f. split; auto. left. split; [|split; auto].
    intros i Hi. destruct (Hf i Hi) as [_ [Hin Hlt]]. auto.
Qed.
Lemma shifted_root s s' keep other f rot i : shifted s s' keep other f rot -> i < length s ->
  root s' i = if root s i =? root s other then root s keep else root s i.
Proof. intros [_ H] Hi. unfold root at 1. rewrite H by auto. destruct (root s i =? root s other); reflexivity. Qed.
Lemma shifted_vecs s s' keep other f rot i : shifted s s' keep other f rot -> i < length s ->
  e_vecs (g s' i) = e_vecs (g s i) /\ e_ghost (g s' i) = e_ghost (g s i).
Proof. intros [_ H] Hi. rewrite H by auto. destruct (root s i =? root s other); auto. Qed.
Lemma shifted_wf s s' rank rank' keep other f rot k : wf s rank -> keep < length s -> other < length s -> length rank' = length rank ->
  length (e_vecs (g s keep)) = k -> length (e_vecs (g s other)) = k -> Permutation (map f (seq 0 k)) (seq 0 k) -> shifted s s' keep other f rot -> wf s' rank'.
Proof.
  intros [Wr Wf Wo Ws] Hk Ho Hl K1 K2 Hp Sh. pose proof (proj1 Sh) as Hls. constructor.
  - lia.
  - intros i Hi. rewrite Hls in Hi. rewrite (shifted_root _ _ _ _ _ _ i Sh Hi), Hls. destruct (Wf i Hi) as [A1 A2]. destruct (Wf keep Hk) as [B1 B2].
    destruct (Nat.eqb_spec (root s i) (root s other)) as [E|E].
    + split; auto. rewrite (shifted_root _ _ _ _ _ _ _ Sh B1), B2. destruct (root s keep =? root s other); auto.
    + split; auto. rewrite (shifted_root _ _ _ _ _ _ _ Sh A1), A2. destruct (Nat.eqb_spec (root s i) (root s other)); [contradiction|auto].
  - intros i Hi. rewrite Hls in Hi. rewrite (proj2 Sh i Hi). destruct (Nat.eqb_spec (root s i) (root s other)) as [E|E]; [|auto].
    apply moved_ok; auto. rewrite (Ws i other) by auto. rewrite K2. exact Hp.
  - intros i j Hi Hj. rewrite Hls in Hi, Hj. rewrite (shifted_root _ _ _ _ _ _ i Sh Hi), (shifted_root _ _ _ _ _ _ j Sh Hj).
    rewrite (proj1 (shifted_vecs _ _ _ _ _ _ i Sh Hi)), (proj1 (shifted_vecs _ _ _ _ _ _ j Sh Hj)).
    destruct (Nat.eqb_spec (root s i) (root s other)) as [E|E], (Nat.eqb_spec (root s j) (root s other)) as [E'|E']; intros H.
    + apply Ws; auto. congruence.
    + rewrite (Ws i other), (Ws j keep) by auto. lia.
    + rewrite (Ws j other), (Ws i keep) by auto. lia.
    + apply Ws; auto.
Qed.
(** The partition after a merge. *)
Definition parts (s : list env) (links : list (nat * nat)) : Prop :=
  forall i j, i < length s -> j < length s -> (root s i = root s j <-> linked links i j).
Lemma linked_mono l m i j : incl l m -> linked l i j -> linked m i j.
Proof. intros H. induction 1; [apply rst_step; auto | apply rst_refl | apply rst_sym; auto | eapply rst_trans; eauto]. Qed.
Lemma linked_root (s : list env) l i j : (forall a b, In (a, b) l -> root s a = root s b) -> linked l i j -> root s i = root s j.
Proof. intros H. induction 1; auto. congruence. Qed.
Lemma shifted_parts s s' a b keep other f rot links : shifted s s' keep other f rot -> (keep = a /\ other = b \/ keep = b /\ other = a) ->
  a < length s -> b < length s -> (forall x y, In (x, y) links -> x < length s /\ y < length s) -> parts s links -> parts s' (links ++ [(a, b)]).
Proof.
  intros Sh Hor Ha Hb Hin P i j Hi Hj. rewrite (proj1 Sh) in Hi, Hj.
  assert (Hko : linked (links ++ [(a, b)]) other keep).
  { destruct Hor as [[-> ->]|[-> ->]]; [apply rst_sym|]; apply rst_step, in_or_app; right; left; auto. }
  assert (Hkl : keep < length s /\ other < length s) by (destruct Hor as [[-> ->]|[-> ->]]; auto). destruct Hkl as [Hk Ho].
  assert (Up : forall x y, x < length s -> y < length s -> root s x = root s y -> linked (links ++ [(a, b)]) x y).
  { intros x y Hx Hy E. apply (linked_mono links); [apply incl_appl, incl_refl|]. apply P; auto. }
  split.
  - rewrite (shifted_root _ _ _ _ _ _ i Sh Hi), (shifted_root _ _ _ _ _ _ j Sh Hj).
    destruct (Nat.eqb_spec (root s i) (root s other)) as [E|E], (Nat.eqb_spec (root s j) (root s other)) as [E'|E']; intros H.
    + apply Up; auto. congruence.
    + apply rst_trans with other; [apply Up; auto|]. apply rst_trans with keep; [exact Hko|]. apply Up; auto.
    + apply rst_trans with keep; [apply Up; auto|]. apply rst_trans with other; [apply rst_sym; exact Hko|]. apply Up; auto.
    + apply Up; auto.
  - apply linked_root. intros x y Hxy. apply in_app_iff in Hxy. destruct Hxy as [Hxy|[Hxy|[]]].
    + destruct (Hin x y Hxy) as [Hx Hy]. rewrite (shifted_root _ _ _ _ _ _ x Sh Hx), (shifted_root _ _ _ _ _ _ y Sh Hy).
      assert (E : root s x = root s y) by (apply P; auto; apply rst_step; auto). rewrite E. reflexivity.
    + injection Hxy as <- <-. rewrite (shifted_root _ _ _ _ _ _ a Sh Ha), (shifted_root _ _ _ _ _ _ b Sh Hb).
      destruct Hor as [[-> ->]|[-> ->]]; rewrite Nat.eqb_refl; destruct (_ =? _); reflexivity.
Qed.
