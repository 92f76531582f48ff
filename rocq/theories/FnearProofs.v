(** Proofs for C82: the search loop on computed distances. *)
From Coq Require Import Psatz Sorting.Sorted.
From Verif Require Import NListProofs MArrayProofs F32Proofs Vec FaabbProofs FaabbProofs2 FaabbProps FnearSpec.
Open Scope R_scope.
Local Notation up := FaabbProofs.up.

Lemma cells_images b r check l : fimages b r check = Some l -> l = cells b.
Proof. unfold fimages, cells, fimages. cbn [andb]. destruct (check && fimage_check b r); [discriminate|]. congruence. Qed.
Lemma up_norm2 (x : fvec) : up (fnorm2 x). Proof. apply up_add; [apply up_add|]; apply up_sq. Qed.
Lemma up_pos (x : f32) : up x -> finite x = true -> 0 <= val x.
Proof. intros [->|[->|[F S]]] H; [discriminate..|]. apply sign_val; auto. Qed.
(** ** Square roots *)
Lemma sqrt_val (x : f32) : val (Bsqrt mode_NE x) = rnd (sqrt (val x)).
Proof. destruct (Bsqrt_correct 24 128 _ _ mode_NE x) as [V _]. exact V. Qed.
Lemma sqrt_fin (x : f32) : up x -> finite (Bsqrt mode_NE x) = finite x.
Proof.
  intros U. destruct (Bsqrt_correct 24 128 _ _ mode_NE x) as (_ & F & _). rewrite F. destruct U as [->|[->|[G S]]]; auto. destruct x as [| | |[] m e H]; auto.
Qed.
Lemma sqrt_mono (x y : f32) : finite x = true -> 0 <= val x -> val x <= val y -> val (Bsqrt mode_NE x) <= val (Bsqrt mode_NE y).
Proof. intros F P L. rewrite !sqrt_val. apply rnd_le. apply sqrt_le_1; lra. Qed.
Lemma sqrt_nonneg (x : f32) : 0 <= val (Bsqrt mode_NE x).
Proof. rewrite sqrt_val. apply rnd_ge_fmt; [apply fmt_0|apply sqrt_pos]. Qed.

(** ** What an inner ball query finds *)
Section Query.
Variables (b : fbox) (points : list fvec) (q : fvec) (qi k : nat) (r_max r_min scale : f32) (excl : bool).
Hypothesis HN : points <> [].
Hypothesis HF : Forall fin3 points.
Local Notation dist := (cdist b points q).
Local Notation sq im j := (fnorm2 (csep b points q im j)).
Lemma dist_finite im j : finite (dist im j) = finite (sq im j).
Proof. apply sqrt_fin, up_norm2. Qed.
Lemma dist_nonneg im j : 0 <= val (dist im j). Proof. apply sqrt_nonneg. Qed.

Definition found_by (r : f32) (x : fbond) : Prop :=
  exists im j, eligible b points qi excl im j /\ Bltb (sq im j) (fmul r r) = true /\ x = FBond qi j (dist im j) (csep b points q im j).
Lemma zero_le (im : fvec) (j : nat) : finite (sq im j) = true -> Bleb (fmul fzero fzero) (sq im j) = true.
Proof. intros F. rewrite Bleb_correct by auto. apply Rle_bool_true. change (val (fmul fzero fzero)) with 0. apply up_pos; auto. apply up_norm2. Qed.
Lemma ball_found r l : faabb_ball b points q qi r fzero excl false (Some l) -> forall x, In x l <-> found_by r x.
Proof.
  intros H. destruct (ball_in _ _ _ _ _ _ _ _ _ HN HF H) as (images & EI & IN). apply cells_images in EI. subst images. intros x. rewrite IN. split.
  - intros (im & j & Hi & Hj & Hx). exists im, j. unfold pair_bond in Hx. destruct (excl && (qi =? j)%nat) eqn:EX; [destruct Hx|].
    destruct (Bltb _ _) eqn:E1; [|destruct Hx]. destruct (Bleb _ _) eqn:E2; [|destruct Hx]. destruct Hx as [<-|[]].
    split; [|split; auto]. split; [auto|split; auto]. intros [-> ->]. cbn [andb] in EX. rewrite Nat.eqb_refl in EX. discriminate.
  - intros (im & j & (Hi & Hj & NE) & E1 & ->). exists im, j. split; auto. split; auto. unfold pair_bond.
    replace (excl && (qi =? j)%nat) with false by (symmetry; destruct excl; auto; apply Nat.eqb_neq; intros ->; apply NE; auto).
    fold (csep b points q im j). rewrite E1, zero_le by (eapply up_lt; [apply up_norm2|exact E1]). left. reflexivity.
Qed.
Lemma found_finite r x : found_by r x -> finite (fb_d x) = true /\ 0 <= val (fb_d x).
Proof. intros (im & j & _ & E & ->). cbn [fb_d]. rewrite dist_finite. split; [|apply dist_nonneg]. eapply up_lt; [apply up_norm2|exact E]. Qed.
(** A pair that is not found is no closer than those that are. *)
Definition number (r : f32) : Prop := r <> B754_nan.
Lemma sq_number r : number r -> fmul r r <> B754_nan.
Proof.
  intros Nr. destruct (finite r) eqn:F.
  - assert (C := Bmult_correct 24 128 _ _ mode_NE r r). fold (fmul r r) in C. intros E. rewrite E in C. destruct (Rlt_bool _ _); [destruct C as (_ & C & _); rewrite F in C; discriminate|]. discriminate.
  - destruct r as [|[]| |]; try discriminate; congruence.
Qed.
Lemma missed r im j : number r -> finite (sq im j) = true -> Bltb (sq im j) (fmul r r) = false -> finite (fmul r r) = true /\ val (fmul r r) <= val (sq im j).
Proof.
  intros Nr F E. assert (NN := sq_number r Nr). destruct (up_sq r) as [U|[U|[U S]]]; [congruence| |].
  - rewrite U in E. destruct (sq im j) as [[]|[]| |[] ? ? ?]; discriminate.
  - split; auto. rewrite Bltb_correct in E by auto. apply Rnot_lt_le. intros L. rewrite (Rlt_bool_true _ _ L) in E. discriminate.
Qed.
Lemma missed_far r im j x : number r -> finite (dist im j) = true -> Bltb (sq im j) (fmul r r) = false -> found_by r x -> val (fb_d x) <= val (dist im j).
Proof.
  intros Nr F E (im' & j' & _ & E' & ->). cbn [fb_d]. rewrite dist_finite in F. destruct (missed r im j Nr F E) as [FR LR].
  assert (F' : finite (sq im' j') = true) by (eapply up_lt; [apply up_norm2|exact E']). rewrite Bltb_correct in E' by auto. destruct (Rlt_bool_spec (val (sq im' j')) (val (fmul r r))); [|discriminate].
  apply sqrt_mono; auto; [apply up_pos; auto; apply up_norm2|lra].
Qed.

(** ** The map of nearest images *)
Lemma ffind_put m i v i' : ffind (fput m i v) i' = if (i' =? i)%nat then Some v else ffind m i'.
Proof.
  induction m as [|[a w] m IH]; cbn [fput ffind].
  - destruct (Nat.eqb_spec i' i); auto.
  - destruct (Nat.eqb_spec i a) as [-> |N]; cbn [ffind].
    + destruct (Nat.eqb_spec i' a); auto.
    + rewrite IH. destruct (Nat.eqb_spec i' a) as [-> |N']; auto. destruct (Nat.eqb_spec a i); congruence.
Qed.
Lemma fkeys_put m i v : NoDup (map fst m) -> NoDup (map fst (fput m i v)) /\ forall a, In a (map fst (fput m i v)) <-> a = i \/ In a (map fst m).
Proof.
  induction m as [|[a w] m IH]; cbn [fput map fst].
  - intros _. split; [repeat constructor; intros []|]. simpl. intuition.
  - intros H. inversion_clear H as [|? ? N D]. destruct (IH D) as [D' I]. destruct (Nat.eqb_spec i a) as [-> |NE]; cbn [map fst].
    + split; [constructor; auto|]. intros c. simpl. intuition.
    + split; [constructor; auto; rewrite I; intros [E|E]; [congruence|auto]|]. intros c. simpl. rewrite I. intuition.
Qed.
Lemma ffind_in m i v : NoDup (map fst m) -> (ffind m i = Some v <-> In (i, v) m).
Proof.
  induction m as [|[a w] m IH]; cbn [ffind map fst]; [split; [discriminate|intros []]|]. intros H. inversion_clear H as [|? ? N D]. specialize (IH D).
  destruct (Nat.eqb_spec i a) as [-> |NE].
  - split; [intros E; left; congruence|]. intros [E|E]; [congruence|]. exfalso. apply N. apply (in_map fst) in E. auto.
  - rewrite IH. split; [right; auto|]. intros [E|E]; [congruence|auto].
Qed.
Lemma finsert_spec s i : NoDup s -> NoDup (finsert s i) /\ forall a, In a (finsert s i) <-> a = i \/ In a s.
Proof.
  intros H. unfold finsert. destruct (existsb (Nat.eqb i) s) eqn:E.
  - split; auto. apply existsb_exists in E as (y & Hy & E). apply Nat.eqb_eq in E. subst y. intros a. split; [auto|]. intros [-> |?]; auto.
  - split.
    + constructor; auto. intros Hk. assert (existsb (Nat.eqb i) s = true) by (apply existsb_exists; exists i; split; auto; apply Nat.eqb_refl). congruence.
    + intros a. simpl. intuition.
Qed.
Definition fine (x : fbond) : Prop := finite (fb_d x) = true.
Definition below_min (x : fbond) : Prop := Bltb (fb_d x) r_min = true.
Definition fmin_inv (l : list fbond) (st : list (nat * fbond) * list nat) : Prop :=
  let '(m, below) := st in
  NoDup (map fst m) /\ NoDup below /\
  (forall i y, ffind m i = Some y -> In y l /\ fb_p y = i /\ forall x, In x l -> fb_p x = i -> val (fb_d y) <= val (fb_d x)) /\
  (forall x, In x l -> ffind m (fb_p x) <> None) /\
  (forall i, In i below <-> exists y, ffind m i = Some y /\ below_min y).
Lemma ltb_val (x y : f32) : finite x = true -> finite y = true -> (Bltb x y = true <-> val x < val y).
Proof. intros F G. rewrite Bltb_correct by auto. destruct (Rlt_bool_spec (val x) (val y)); split; intros; auto; try discriminate; lra. Qed.
Lemma leb_val (x y : f32) : finite x = true -> finite y = true -> (Bleb x y = true <-> val x <= val y).
Proof. intros F G. rewrite Bleb_correct by auto. destruct (Rle_bool_spec (val x) (val y)); split; intros; auto; try discriminate; lra. Qed.
Lemma fkeep_inv l st x : Forall fine l -> fine x -> fmin_inv l st -> fmin_inv (l ++ [x]) (fkeep r_min st x).
Proof.
  intros FL Fx. destruct st as [m below]. intros (D & DB & HM & HC & HB). unfold fkeep. rewrite Forall_forall in FL.
  assert (APP : forall y, In y (l ++ [x]) <-> In y l \/ y = x) by (intros y; rewrite in_app_iff; simpl; intuition).
  destruct (match ffind m (fb_p x) with None => true | Some y => Bltb (fb_d x) (fb_d y) end) eqn:E.
  - destruct (fkeys_put m (fb_p x) x D) as [D' _].
    assert (LE : forall y, ffind m (fb_p x) = Some y -> val (fb_d x) < val (fb_d y)).
    { intros y Hy. rewrite Hy in E. apply ltb_val in E; auto. apply FL. apply (HM _ _ Hy). }
    assert (B' : forall i, In i (if Bltb (fb_d x) r_min then finsert below (fb_p x) else below) <-> In i below \/ below_min x /\ i = fb_p x).
    { intros i. unfold below_min. destruct (Bltb (fb_d x) r_min) eqn:ER.
      - destruct (finsert_spec below (fb_p x) DB) as [_ I]. rewrite I. intuition.
      - intuition. discriminate. }
    split; [auto|]. split; [destruct (Bltb (fb_d x) r_min); auto; apply finsert_spec; auto|]. split; [|split].
    + intros i y. rewrite ffind_put. destruct (Nat.eqb_spec i (fb_p x)) as [-> |NE].
      * intros Ey. assert (y = x) by congruence. subst y. split; [apply APP; auto|split; auto]. intros z Hz Ez. apply APP in Hz as [Hz| ->]; [|lra].
        destruct (ffind m (fb_p x)) as [w|] eqn:F.
        -- destruct (HM _ _ F) as (_ & _ & G). specialize (G z Hz Ez). specialize (LE w eq_refl). lra.
        -- exfalso. apply (HC z Hz). rewrite Ez. auto.
      * intros F. destruct (HM _ _ F) as (I & K & G). split; [apply APP; auto|split; auto]. intros z Hz Ez. apply APP in Hz as [Hz| ->]; auto. congruence.
    + intros z Hz. rewrite ffind_put. destruct (Nat.eqb_spec (fb_p z) (fb_p x)); [discriminate|]. apply APP in Hz as [Hz| ->]; [auto|congruence].
    + intros i. rewrite B', HB. split.
      * intros [(y & F & Ly)|[L ->]].
        -- destruct (Nat.eq_dec i (fb_p x)) as [-> |NE].
           ++ exists x. rewrite ffind_put, Nat.eqb_refl. split; auto. specialize (LE y F). unfold below_min in *. apply (lt_mono (fb_d x) (fb_d y)); auto; [apply FL; apply (HM _ _ F)|lra].
           ++ exists y. rewrite ffind_put. destruct (Nat.eqb_spec i (fb_p x)); [congruence|auto].
        -- exists x. rewrite ffind_put, Nat.eqb_refl. auto.
      * intros (y & F & Ly). rewrite ffind_put in F. destruct (Nat.eqb_spec i (fb_p x)) as [-> |NE]; [assert (y = x) by congruence; subst y; auto|]. left. exists y. auto.
  - destruct (ffind m (fb_p x)) as [w|] eqn:F; [|discriminate].
    assert (LW : val (fb_d w) <= val (fb_d x)).
    { apply Rnot_lt_le. intros L. apply ltb_val in L; [congruence|auto|]. apply FL. apply (HM _ _ F). }
    split; [auto|split; [auto|]]. split; [|split; auto].
    + intros i y Fy. destruct (HM _ _ Fy) as (I & K & G). split; [apply APP; auto|split; auto]. intros z Hz Ez. apply APP in Hz as [Hz| ->]; auto.
      rewrite Ez in F. rewrite F in Fy. assert (w = y) by congruence. subst y. auto.
    + intros z Hz. apply APP in Hz as [Hz| ->]; auto. congruence.
Qed.
Lemma ffold_inv l : Forall fine l -> fmin_inv l (fold_left (fkeep r_min) l ([], [])).
Proof.
  assert (G : forall l l0 st, Forall fine l0 -> Forall fine l -> fmin_inv l0 st -> fmin_inv (l0 ++ l) (fold_left (fkeep r_min) l st)).
  { clear. induction l as [|x l IH]; intros l0 st F0 F H; simpl; [rewrite app_nil_r; auto|]. inversion_clear F. replace (l0 ++ x :: l) with ((l0 ++ [x]) ++ l) by (rewrite <- app_assoc; reflexivity).
    apply IH; auto; [apply Forall_app; auto|apply fkeep_inv; auto]. }
  intros F. apply (G l []); auto. split; [constructor|split; [constructor|]]. split; [discriminate|]. split; [intros x []|]. intros i. split; [intros []|intros (y & E & _); discriminate].
Qed.
Lemma leb_ltb (x y : f32) : number x -> finite y = true -> Bleb x y = negb (Bltb y x).
Proof.
  intros Nx Fy. destruct (finite x) eqn:Fx.
  - rewrite Bleb_correct, Bltb_correct by auto. destruct (Rle_bool_spec (val x) (val y)), (Rlt_bool_spec (val y) (val x)); auto; lra.
  - destruct x as [|[]| |]; try discriminate; destruct y as [[]|[]| |[] ? ? ?]; try discriminate; try reflexivity; congruence.
Qed.
Lemma fmin_count l m below : Forall fine l -> number r_min -> fmin_inv l (m, below) -> length (filter (fun x => Bleb r_min (fb_d x)) (map snd m)) = (length m - length below)%nat.
Proof.
  intros FL NM (D & DB & HM & HC & HB). rewrite Forall_forall in FL.
  assert (FM : forall i y, In (i, y) m -> fine y) by (intros i y H; apply ffind_in in H; auto; apply FL; apply (HM _ _ H)).
  assert (L : length below = length (filter (fun x => negb (Bleb r_min (fb_d x))) (map snd m))).
  { transitivity (length (map fst (filter (fun kx => negb (Bleb r_min (fb_d (snd kx)))) m))).
    - apply Permutation_length. apply NoDup_Permutation; auto.
      + clear - D. induction m as [|[i v] m IH]; simpl; [constructor|]. inversion_clear D as [|? ? N D']. destruct (negb _); simpl; auto. constructor; auto.
        intros H. apply N. apply in_map_iff in H as ([i' v'] & E & H). apply filter_In in H as [H _]. simpl in E. subst i'. apply (in_map fst) in H. auto.
      + intros i. rewrite HB, in_map_iff. split.
        * intros (y & F & Ly). exists (i, y). split; auto. assert (F' := F). apply ffind_in in F; auto. apply filter_In. split; auto. cbn [snd]. rewrite leb_ltb, Ly; auto. apply (FM _ _ F).
        * intros ([i' y] & E & H). simpl in E. subst i'. apply filter_In in H as [H N]. exists y. split; [apply ffind_in; auto|]. cbn [snd] in N. rewrite leb_ltb in N; [|auto|apply (FM _ _ H)]. rewrite negb_involutive in N. auto.
    - rewrite map_length. clear. induction m as [|[i v] m IH]; simpl; auto. destruct (negb _); simpl; auto. }
  rewrite L. clear. induction m as [|[i v] m IH]; simpl; auto.
  assert (H : forall l : list fbond, (length (filter (fun x => negb (Bleb r_min (fb_d x))) l) <= length l)%nat) by (clear; induction l as [|y l IH]; simpl; [lia|destruct (negb (Bleb r_min (fb_d y))); simpl; lia]).
  specialize (H (map snd m)). rewrite map_length in H. destruct (Bleb r_min (fb_d v)); cbn [negb filter length]; [|exact IH]. destruct (length (filter (fun x => negb (Bleb r_min (fb_d x))) (map snd m))); lia.
Qed.

(** ** What the loop has in hand after a ball query of radius [r] *)
Definition hand (r : f32) (S : list fbond) : Prop :=
  (forall x, In x S -> found_by r x /\ at_least (fb_d x) r_min) /\
  (forall im j, eligible b points qi excl im j -> nearest_cell b points q im j -> at_least (dist im j) r_min -> Bltb (sq im j) (fmul r r) = true ->
     exists y, In y S /\ fb_p y = j /\ val (fb_d y) = val (dist im j)).
Definition nearest_only (S : list fbond) : Prop :=
  NoDup (map fb_p S) /\ forall x, In x S -> exists im, eligible b points qi excl im (fb_p x) /\ nearest_cell b points q im (fb_p x) /\ x = FBond qi (fb_p x) (dist im (fb_p x)) (csep b points q im (fb_p x)).
Lemma filter_all {A} (f : A -> bool) l : (forall x, In x l -> f x = true) -> filter f l = l.
Proof. induction l as [|a l IH]; simpl; intros H; auto. rewrite (H a) by auto. f_equal. apply IH. auto. Qed.
Lemma collect_spec ext r found cur m below : number r -> faabb_ball b points q qi r fzero excl false (Some found) -> fcollect ext qi r_min excl found = (cur, (m, below)) ->
  let S := cur ++ filter (fun x => Bleb r_min (fb_d x)) (map snd m) in
  hand r S /\ (ext = true -> cur = [] /\ nearest_only S /\ (number r_min -> length S = (length m - length below)%nat)) /\
  (ext = false -> m = [] /\ below = [] /\ S = filter (fun x => Bleb r_min (fb_d x)) found).
Proof.
  intros NR HB HC. cbv zeta. assert (FB := ball_found r found HB).
  assert (FF : filter (fun x => negb excl || negb (qi =? fb_p x)%nat) found = found).
  { apply filter_all. intros x Hx. apply FB in Hx as (im & j & (_ & _ & NE) & _ & ->). cbn [fb_p]. destruct excl; auto. cbn [negb orb]. destruct (Nat.eqb_spec qi j); auto. }
  unfold fcollect in HC. rewrite FF in HC. clear FF.
  assert (FI : Forall fine found) by (apply Forall_forall; intros x Hx; apply FB in Hx; apply (found_finite _ _ Hx)).
  destruct ext.
  - assert (INV := ffold_inv found FI). destruct (fold_left (fkeep r_min) found ([], [])) as [m' below']. assert (E1 : cur = []) by congruence. assert (E2 : m' = m) by congruence. assert (E3 : below' = below) by congruence. subst. clear HC.
    assert (CNT := fun N => fmin_count found m below FI N INV). destruct INV as (D & DB & HM & HCV & HBL). cbn [app].
    assert (VAL : forall x, In x (map snd m) <-> ffind m (fb_p x) = Some x).
    { intros x. rewrite in_map_iff. split.
      - intros ([i y] & Ey & H). simpl in Ey. subst y. apply ffind_in in H; auto. destruct (HM _ _ H) as (_ & <- & _). auto.
      - intros H. apply ffind_in in H; auto. exists (fb_p x, x). auto. }
    split; [split|split; [|discriminate]].
    + intros x Hx. apply filter_In in Hx as [Hx L]. split; [|exact L]. apply VAL in Hx. apply FB. apply (HM _ _ Hx).
    + intros im j EL NC AL E. assert (Hx : In (FBond qi j (dist im j) (csep b points q im j)) found) by (apply FB; exists im, j; auto).
      destruct (ffind m j) as [y|] eqn:Fy; [|exfalso; apply (HCV _ Hx); exact Fy]. exists y. destruct (HM _ _ Fy) as (Iy & Py & My). assert (Ly := My _ Hx eq_refl). cbn [fb_d] in Ly.
      pose proof (proj1 (FB y) Iy) as (im' & j' & (Hi' & _) & E' & Ey). rewrite Ey in Py. cbn [fb_p] in Py. subst j'. assert (F' := found_finite r y (proj1 (FB y) Iy)).
      assert (V : val (fb_d y) = val (dist im j)).
      { apply Rle_antisym; auto. rewrite Ey. cbn [fb_d]. apply NC; auto. destruct F' as [F' _]. rewrite Ey in F'. exact F'. }
      split; [|split; auto; rewrite Ey; auto]. apply filter_In. split; [|unfold at_least in AL; rewrite <- AL; apply le_same; [apply F'|apply NC|auto]].
      apply in_map_iff. exists (j, y). split; auto. apply ffind_in; auto.
    + intros _. split; auto. split; [|intros N; apply CNT; auto]. split.
      * assert (KV : forall l : list (nat * fbond), (forall i y, In (i, y) l -> fb_p y = i) -> NoDup (map fst l) -> NoDup (map fb_p (filter (fun x => Bleb r_min (fb_d x)) (map snd l)))).
        { clear. induction l as [|[i v] l IH]; simpl; intros K N; [constructor|]. inversion_clear N as [|? ? N1 N2]. assert (Ev : fb_p v = i) by (apply K; auto).
          destruct (Bleb r_min (fb_d v)); simpl; [|apply IH; auto]. constructor; [|apply IH; auto]. intros H. apply N1. apply in_map_iff in H as (y & Ey & Hy). apply filter_In in Hy as [Hy _].
          apply in_map_iff in Hy as ([i' y'] & E' & Hy). simpl in E'. subst y'. rewrite <- Ev, <- Ey. rewrite (K i' y (or_intror Hy)). apply (in_map fst) in Hy. exact Hy. }
        apply KV; auto. intros i y H. apply ffind_in in H; auto. apply (HM _ _ H).
      * intros x Hx. apply filter_In in Hx as [Hx _]. apply VAL in Hx. destruct (HM _ _ Hx) as (Ix & _ & Mx). pose proof (proj1 (FB x) Ix) as (im & j & EL & E & Ex). exists im. rewrite Ex. cbn [fb_p]. split; auto. split; [|auto].
        assert (FX := found_finite r x (proj1 (FB x) Ix)). rewrite Ex in FX. cbn [fb_d] in FX. split; [apply FX|]. intros im' Hi' F'.
        destruct (Bltb (sq im' j) (fmul r r)) eqn:E'.
        -- specialize (Mx (FBond qi j (dist im' j) (csep b points q im' j))). rewrite Ex in Mx. cbn [fb_d fb_p] in Mx. apply Mx; auto. apply FB. exists im', j. split; [|auto]. destruct EL as (_ & EL). split; auto.
        -- assert (MF := missed_far r im' j x NR F' E' (proj1 (FB x) Ix)). rewrite Ex in MF. exact MF.
  - assert (E1 : cur = filter (fun x => Bleb r_min (fb_d x)) found) by congruence. assert (E2 : m = []) by congruence. assert (E3 : below = []) by congruence. subst. cbn [map filter]. rewrite app_nil_r.
    split; [split|split; [discriminate|auto]].
    + intros x Hx. apply filter_In in Hx as [Hx L]. split; [apply FB; auto|exact L].
    + intros im j EL NC AL E. exists (FBond qi j (dist im j) (csep b points q im j)). split; [|split; auto]. apply filter_In. split; [|exact AL]. apply FB. exists im, j. auto.
Qed.
End Query.
