(** Model of freud/environment/Registration.h (KabschAlgorithm, RegisterBruteForce) and of the code that calls it for RMSD minimisation
    (MatchEnv.cc:415-497 minimizeRMSD, 729-805 EnvironmentRMSDMinimizer; environment.py:552-592), over exact reals.
    [None] stands for an exception, an access out of bounds, a loop that does not end, or 0/0 in AlignedRMSDTree for no points.
    Parameters: the singular value decomposition of Eigen (a function giving U and V), std::sort on the distances (unstable, so any
    function on lists of pairs), and the indices drawn by the random number generator (the list of the drawn p0, p1, p2 that are used;
    the loop that redraws until they are distinct is not modelled: its result is the parameter).
    Not modelled: makeEigenMatrix / makeVec3Matrix conversions, CenterOfMass, Translate and AlignVectorSets (unused by the library),
    setNumShuffles and setTol (never called: one shuffle, tolerance 1e-6). *)
From Verif Require Export QuatModel MatchEnvModel.
Local Open Scope R_scope.

(* Registration.h:119  P.transpose() * Q for two lists of rows *)
Definition rzero : rotm := RM v0 v0 v0.
Definition radd (a b : rotm) : rotm := RM (vadd (r0 a) (r0 b)) (vadd (r1 a) (r1 b)) (vadd (r2 a) (r2 b)).
Definition outer (p q : vec3) : rotm := RM (vscale (vx p) q) (vscale (vy p) q) (vscale (vz p) q).
Fixpoint cov (P Q : list vec3) : rotm :=
  match P, Q with p :: P', q :: Q' => radd (outer p q) (cov P' Q') | _, _ => rzero end.
(* Registration.h:120-125  JacobiSVD(A, ComputeFullU | ComputeFullV): the matrices U and V *)
Definition svd_fun := rotm -> rotm * rotm.
(* Registration.h:133  V.col(V.cols() - 1) *= -1.0 *)
Definition flip_last_col (m : rotm) : rotm :=
  RM (V3 (vx (r0 m)) (vy (r0 m)) (vz (r0 m) * -1)) (V3 (vx (r1 m)) (vy (r1 m)) (vz (r1 m) * -1)) (V3 (vx (r2 m)) (vy (r2 m)) (vz (r2 m) * -1)).
(* Registration.h:114-137  KabschAlgorithm *)
Definition kabsch (svd : svd_fun) (P Q : list vec3) : rotm :=
  let '(U, V) := svd (cov P Q) in
  let V' := if Rltb (rdet (rmul V (rtrans U))) 0 then flip_last_col V else V in
  rmul V' (rtrans U).

(* Registration.h:366-374: the squared distances from the point to the unused reference points *)
Definition ref_distances (refs : list vec3) (unused : list nat) (p : vec3) : option (list (nat * R)) :=
  omap (fun i => option_map (fun x => (i, len_sq (vsub x p))) (nth_error refs i)) unused.
(* Registration.h:375-376, 402-406  std::sort with compare_ref_distances *)
Definition sort_fun := list (nat * R) -> list (nat * R).
(* Registration.h:361-383: the loop over the points, from index [r] on *)
Fixpoint tree_loop (srt : sort_fun) (refs pts : list vec3) (r : nat) (unused : list nat) (vm : bimap) (acc : R) : option (bimap * R) :=
  match pts with
  | [] => Some (vm, acc)
  | p :: t =>
      match ref_distances refs unused p with
      | Some ds =>
          match srt ds with
          | (i, d) :: _ => tree_loop srt refs t (S r) (remove Nat.eq_dec i unused) (emplace vm i r) (acc + d)
          | [] => None
          end
      | None => None
      end
  end.
(* Registration.h:337-387  AlignedRMSDTree *)
Definition aligned_rmsd (srt : sort_fun) (refs pts : list vec3) : option (R * bimap) :=
  match tree_loop srt refs pts 0 (seq 0 (length refs)) [] 0 with
  | Some (vm, acc) => if Nat.eqb (length pts) 0 then None else Some (sqrt (acc / INR (length pts)), vm)
  | None => None
  end.

(* std::next_permutation on distinct numbers: whether there was a next one, and the new contents *)
Fixpoint first_gt (x : nat) (l : list nat) : option (list nat * nat * list nat) :=
  match l with
  | [] => None
  | y :: t => if Nat.ltb x y then Some ([], y, t)
              else match first_gt x t with Some (lo, z, hi) => Some (y :: lo, z, hi) | None => None end
  end.
Fixpoint next_perm (l : list nat) : bool * list nat :=
  match l with
  | [] => (false, [])
  | x :: t => match next_perm t with
              | (true, t') => (true, x :: t')
              | (false, asc) => match first_gt x asc with
                                | Some (lo, y, hi) => (true, y :: lo ++ x :: hi)
                                | None => (false, asc ++ [x])
                                end
              end
  end.
(* Registration.h:409-434  NextCombination; [i] counts down from k *)
Fixpoint comb_scan (comb : list nat) (N k i : nat) : option (list nat) :=
  match i with
  | O => None
  | S i' => if Nat.ltb (nth i' comb 0%nat + 1) (N + i' - k + 1)
            then Some (firstn i' comb ++ seq (nth i' comb 0%nat + 1) (k - i'))
            else comb_scan comb N k i'
  end.
Definition next_comb (comb : list nat) (N k : nat) : option (list nat) :=
  if Nat.eqb k 0 || Nat.eqb N 0 then None else comb_scan comb N k k.

(* Registration.h:475-482: m_rotation, m_rmsd and m_vec_map *)
Record fitres := FR { f_rot : rotm; f_rmsd : R; f_map : bimap }.
Definition pick (l : list vec3) (c : list nat) : option (list vec3) := omap (nth_error l) c.
(* Registration.h:478  m_tol *)
Definition tol : R := / 1000000.
(* Registration.h:248-293: one pass of the inner loop; the flag tells whether Fit returns *)
Definition try_tuple (svd : svd_fun) (srt : sort_fun) (refs pts p : list vec3) (c : list nat) (best : option fitres) : option (option fitres * bool) :=
  match pick pts c with
  | Some q =>
      let r := kabsch svd q p in
      match aligned_rmsd srt refs (map (rapply r) pts) with
      | Some (d, vm) =>
          let rmsd_min := match best with Some b => f_rmsd b | None => -1 end in
          if Rltb d rmsd_min || Rltb rmsd_min 0 then Some (Some (FR r d vm), Rltb d tol) else Some (best, false)
      | None => None
      end
  | None => None
  end.
(* Registration.h:244-295: the two nested do-while loops.  The fuel bounds the number of passes. *)
Fixpoint fit_loop (fuel : nat) (svd : svd_fun) (srt : sort_fun) (refs pts p : list vec3) (N k : nat) (comb : list nat) (best : option fitres) : option (option fitres) :=
  match fuel with
  | O => None
  | S f =>
      match try_tuple svd srt refs pts p comb best with
      | Some (best', true) => Some best'
      | Some (best', false) =>
          match next_perm comb with
          | (true, c) => fit_loop f svd srt refs pts p N k c best'
          | (false, c) => match next_comb c N k with
                          | Some c' => fit_loop f svd srt refs pts p N k c' best'
                          | None => Some best'
                          end
          end
      | None => None
      end
  end.
(* Registration.h:213-243: the number of points used *)
Definition num_pts (N : nat) : nat := if Nat.eqb N 2 then 2%nat else if Nat.eqb N 1 then 1%nat else 3%nat.
(* Registration.h:168-303  RegisterBruteForce(refs).Fit(pts): what getRotation, getRMSD and getVecMap return, and the new pts *)
Definition fit (svd : svd_fun) (srt : sort_fun) (draw : list nat) (refs pts : list vec3) : option (fitres * list vec3) :=
  let N := length pts in
  if negb (Nat.eqb N (length refs)) then None
  else match pick refs (firstn (num_pts N) draw) with
       | Some p =>
           match fit_loop (6 * (N * N * N) + 6) svd srt refs pts p N (num_pts N) (firstn (num_pts N) [0; 1; 2]%nat) None with
           | Some (Some b) => Some (b, map (rapply (f_rot b)) pts)
           | _ => None
           end
       | None => None
       end.
(** The registration used by isSimilar (MatchEnv.cc:308-314), as the parameter of MatchEnvModel; [draw N] is what is drawn for N points.
    Where Fit has no result, an empty map. *)
Definition reg_of (svd : svd_fun) (srt : sort_fun) (draw : nat -> list nat) : registration := fun v1 v2 =>
  match fit svd srt (draw (length v1)) v1 v2 with Some (f, _) => (f_rot f, f_map f) | None => (rid, []) end.

(* MatchEnv.cc:415-463  minimizeRMSD on two environments; [reg] gives the drawn indices when registration is asked for *)
Definition minimize (svd : svd_fun) (srt : sort_fun) (reg : option (list nat)) (e1 e2 : env) : option (R * rotm * bimap) :=
  if negb (Nat.eqb (length (e_vecs e1)) (length (e_vecs e2))) then Some (-1, rid, [])
  else match proper e1, proper e2 with
       | Some v1, Some v2 =>
           match reg with
           | Some draw => match fit svd srt draw v1 v2 with Some (f, _) => Some (f_rmsd f, f_rot f, f_map f) | None => None end
           | None => match aligned_rmsd srt v1 v2 with Some (d, vm) => Some (d, rid, vm) | None => None end
           end
       | _, _ => None
       end.
(* environment.py:552-592 (_minimize_RMSD) with MatchEnv.cc:465-490: the RMSD, the returned points and the map *)
Definition minimize_py (svd : svd_fun) (srt : sort_fun) (reg : option (list nat)) (b : box) (ref pts : list vec3) : option (R * list vec3 * bimap) :=
  if negb (Nat.eqb (length ref) (length pts)) then None
  else match minimize svd srt reg (new_env 0 true (map (wrap b) ref)) (new_env 1 true (map (wrap b) pts)) with
       | Some (d, rot, vm) => Some (d, map (rapply rot) (map (wrap b) pts), vm)
       | None => None
       end.

(* MatchEnv.h:373-420 the results of an EnvironmentRMSDMinimizer *)
Record rmsd_obj := RO { ro_rmsds : list R; ro_penv : list (list vec3) }.
Definition new_rmsd_obj : rmsd_obj := RO [] [].
(* MatchEnv.cc:767-803: one particle *)
Definition rmsd_step (svd : svd_fun) (srt : sort_fun) (reg : nat -> option (list nat)) (st : (list env * list nat) * list ebond * list R * list (list vec3)) (i : nat) :
    option ((list env * list nat) * list ebond * list R * list (list vec3)) :=
  let '(d, bonds, rmsds, penv) := st in
  let '(vs, rest) := build_vecs i bonds in
  let s := fst d ++ [new_env (S i) false vs] in
  match nth_error s 0, nth_error s (S i) with
  | Some e0, Some ei =>
      match minimize svd srt (reg i) e0 ei with
      | Some (x, rot, vm) =>
          match (match vm with [] => Some (s, snd d) | _ => merge (s, snd d) 0 (S i) vm rot end) with
          | Some d' =>
              match nth_error (fst d') (S i) with
              | Some e => match proper e with
                          | Some pv => Some (d', rest, rmsds ++ [x], push_env penv i pv)
                          | None => None end
              | None => None end
          | None => None end
      | None => None end
  | _, _ => None
  end.
(* MatchEnv.cc:729-805  EnvironmentRMSDMinimizer::compute *)
Definition rmsd_compute (svd : svd_fun) (srt : sort_fun) (reg : nat -> option (list nat)) (o : rmsd_obj) (b : box) (np : nat) (bonds : list ebond) (motif : list vec3) :
    option rmsd_obj :=
  let e0 := new_env 0 true (map (wrap b) motif) in
  option_map (fun st => let '(_, _, x, p) := st in RO x p)
    (ofold (rmsd_step svd srt reg) (seq 0 np) (([e0], repeat 0%nat (S np)), bonds, [], ro_penv o)).
