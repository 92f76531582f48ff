(** Model of freud/environment/MatchEnv.cc and MatchEnv.h (Environment, EnvDisjointSet, isSimilar, EnvironmentCluster,
    EnvironmentMotifMatch) and of the part of freud/util/BiMap.h they use, over exact reals.
    [None] stands for an exception, an access out of bounds or a loop that does not end.
    The registration search (Registration.h: RegisterBruteForce) is a parameter here, giving for each call a matrix and a list of index
    pairs; RegModel.v models it. *)
From Verif Require Export BoxModel.
From Coq Require Export List Arith Lia.
From Flocq Require Export Core.Raux.
Export ListNotations.
Local Open Scope R_scope.

(* VectorMath.h:966-1005  rotmat3, its default constructor *)
Record rotm := RM { r0 : vec3; r1 : vec3; r2 : vec3 }.
Definition rid : rotm := RM (V3 1 0 0) (V3 0 1 0) (V3 0 0 1).
(* VectorMath.h:1038-1045  rotmat3 * vec3 *)
Definition rapply (m : rotm) (v : vec3) : vec3 := V3 (dot (r0 m) v) (dot (r1 m) v) (dot (r2 m) v).
(* VectorMath.h:1071-1080 transpose, 1048-1062 rotmat3 * rotmat3 *)
Definition rtrans (m : rotm) : rotm :=
  RM (V3 (vx (r0 m)) (vx (r1 m)) (vx (r2 m))) (V3 (vy (r0 m)) (vy (r1 m)) (vy (r2 m))) (V3 (vz (r0 m)) (vz (r1 m)) (vz (r2 m))).
Definition rmul (a b : rotm) : rotm :=
  let t := rtrans b in
  let row u := V3 (dot u (r0 t)) (dot u (r1 t)) (dot u (r2 t)) in RM (row (r0 a)) (row (r1 a)) (row (r2 a)).

(* BiMap.h:148-160 emplace; 200-210 left[]; 270-280 right[].  A lookup of an absent key (which would insert a default) is [None]. *)
Definition bimap := list (nat * nat).
Definition emplace (m : bimap) (i j : nat) : bimap :=
  if existsb (fun p => Nat.eqb (fst p) i || Nat.eqb (snd p) j) m then m else m ++ [(i, j)].
Definition bleft (m : bimap) (i : nat) : option nat := option_map snd (find (fun p => Nat.eqb (fst p) i) m).
Definition bright (m : bimap) (j : nat) : option nat := option_map fst (find (fun p => Nat.eqb (snd p) j) m).

Fixpoint omap {A B} (f : A -> option B) (l : list A) : option (list B) :=
  match l with
  | [] => Some []
  | x :: t => match f x, omap f t with Some y, Some ys => Some (y :: ys) | _, _ => None end
  end.
Fixpoint ofold {A S} (f : S -> A -> option S) (l : list A) (s : S) : option S :=
  match l with [] => Some s | x :: t => match f s x with Some s' => ofold f t s' | None => None end end.
Fixpoint put {A} (l : list A) (i : nat) (x : A) : list A :=
  match l, i with [], _ => [] | _ :: t, O => x :: t | y :: t, S k => y :: put t k x end.

(* MatchEnv.h:29-52 *)
Record env := Env { e_ind : nat; e_vecs : list vec3; e_ghost : bool; e_vind : list nat; e_rot : rotm }.
(* MatchEnv.h:33-45  constructor followed by addVec of each vector *)
Definition new_env (i : nat) (ghost : bool) (vs : list vec3) : env := Env i vs ghost (seq 0 (length vs)) rid.
Definition set_ind (e : env) (i : nat) : env := Env i (e_vecs e) (e_ghost e) (e_vind e) (e_rot e).
(* MatchEnv.cc:265-275 (getIndividualEnv), also 297-301 and 225-229: the vectors in proper order and orientation *)
Definition proper (e : env) : option (list vec3) :=
  omap (fun m => match nth_error (e_vind e) m with
                 | Some r => option_map (rapply (e_rot e)) (nth_error (e_vecs e) r)
                 | None => None end) (seq 0 (length (e_vecs e))).

(* MatchEnv.cc:152-171  find.  The fuel bounds the number of steps of each loop. *)
Fixpoint follow (fuel : nat) (s : list env) (r : nat) : option nat :=
  match nth_error s r with
  | None => None
  | Some e => if Nat.eqb (e_ind e) r then Some r else match fuel with O => None | S f => follow f s (e_ind e) end
  end.
Fixpoint compress (fuel : nat) (s : list env) (i r : nat) : option (list env) :=
  if Nat.eqb i r then Some s
  else match fuel, nth_error s i with
       | S f, Some e => compress f (put s i (set_ind e r)) (e_ind e) r
       | _, _ => None
       end.
Definition mfind (s : list env) (c : nat) : option (nat * list env) :=
  match follow (length s) s c with
  | Some r => option_map (fun s' => (r, s')) (compress (length s) s c r)
  | None => None
  end.
(* MatchEnv.cc:173-200  findSet *)
Definition find_set (s : list env) (m : nat) : option (list nat * list env) :=
  match ofold (fun (st : list nat * list env) i =>
                 match nth_error (snd st) i with
                 | Some e => match mfind (snd st) (e_ind e) with
                             | Some (h, s') => Some (if Nat.eqb h m then fst st ++ [i] else fst st, s')
                             | None => None end
                 | None => None end) (seq 0 (length s)) ([], s) with
  | Some (x :: l, s') => Some (x :: l, s')
  | _ => None
  end.

(* MatchEnv.cc:46-58, 84-95, 118-128: the loop that renumbers the vectors of one node *)
Definition reindex (view : nat -> option nat) (size : nat) (old : list nat) : option (list nat) :=
  if Nat.leb size (length old)
  then option_map (fun new => new ++ skipn size old)
         (omap (fun k => match view k with Some r => nth_error old r | None => None end) (seq 0 size))
  else None.
(* MatchEnv.cc:41-70, 79-105, 113-146: one node of the set that is merged into the set of [keep] *)
Definition node_step (view : nat -> option nat) (size keep : nat) (rot : rotm) (st : list env * list nat) (node : nat) : option (list env * list nat) :=
  match nth_error (fst st) node, nth_error (fst st) keep with
  | Some e, Some k =>
      match reindex view size (e_vind e), nth_error (snd st) (e_ind k) with
      | Some vi, Some rk => Some (put (fst st) node (Env (e_ind k) (e_vecs e) (e_ghost e) vi (rmul rot (e_rot e))), put (snd st) (e_ind k) (S rk))
      | _, _ => None
      end
  | _, _ => None
  end.
Definition absorb (view : nat -> option nat) (size keep other : nat) (rot : rotm) (st : list env * list nat) : option (list env * list nat) :=
  match mfind (fst st) other with
  | Some (h, s) => match find_set s h with
                   | Some (nodes, s') => ofold (node_step view size keep rot) nodes (s', snd st)
                   | None => None end
  | None => None
  end.
(* MatchEnv.cc:31-150  merge (the branches for equal rank and for larger rank are the same code) *)
Definition merge (st : list env * list nat) (a b : nat) (vm : bimap) (rot : rotm) : option (list env * list nat) :=
  match nth_error (fst st) a, nth_error (fst st) b with
  | Some ea, Some eb =>
      match nth_error (snd st) (e_ind ea), nth_error (snd st) (e_ind eb) with
      | Some ra, Some rb =>
          if Nat.ltb ra rb then absorb (bright vm) (length vm) b a (rtrans rot) st
          else absorb (bleft vm) (length vm) a b rot st
      | _, _ => None
      end
  | _, _ => None
  end.

(** The registration parameter: given both vector lists, a matrix and index pairs (RegisterBruteForce::getRotation, getVecMap). *)
Definition registration := list vec3 -> list vec3 -> rotm * list (nat * nat).
Definition len_sq (v : vec3) : R := dot v v.
(* MatchEnv.cc:318-325, 335-346: insert a pair when the two vectors are close *)
Definition insert_close (tsq : R) (v1 v2 : list vec3) (vm : bimap) (p : nat * nat) : option bimap :=
  match nth_error v1 (fst p), nth_error v2 (snd p) with
  | Some x, Some y => Some (if Rlt_bool (len_sq (vsub x y)) tsq then emplace vm (fst p) (snd p) else vm)
  | _, _ => None
  end.
(* MatchEnv.cc:281-361  isSimilar *)
Definition is_similar (tsq : R) (reg : option registration) (e1 e2 : env) : option (rotm * bimap) :=
  if negb (Nat.eqb (length (e_vecs e1)) (length (e_vecs e2))) then Some (rid, [])
  else match proper e1, proper e2 with
       | Some v1, Some v2 =>
           let '(rot, cand, v2') := match reg with
             | Some f => let '(rot, vm) := f v1 v2 in (rot, vm, map (rapply rot) v2)
             | None => (rid, list_prod (seq 0 (length v1)) (seq 0 (length v2)), v2) end in
           match ofold (insert_close tsq v1 v2') cand [] with
           | Some vm => Some (rot, if Nat.eqb (length vm) (length (e_vecs e1)) then vm else [])
           | None => None end
       | _, _ => None
       end.

(** A bond of the neighbour list with its vector. *)
Record ebond := EB { eb_i : nat; eb_j : nat; eb_v : vec3 }.
(* MatchEnv.cc:503-522  buildEnv: the vectors, and the bonds left *)
Fixpoint build_vecs (i : nat) (bonds : list ebond) : list vec3 * list ebond :=
  match bonds with
  | b :: t => if Nat.eqb (eb_i b) i
              then let '(vs, rest) := build_vecs i t in (if Nat.eqb i (eb_j b) then vs else eb_v b :: vs, rest)
              else ([], bonds)
  | [] => ([], [])
  end.
(* MatchEnv.cc:549-553 *)
Fixpoint build_all (is : list nat) (bonds : list ebond) : list env :=
  match is with
  | [] => []
  | i :: t => let '(vs, rest) := build_vecs i bonds in new_env i false vs :: build_all t rest
  end.
(* MatchEnv.cc:561-583: one bond *)
Definition bond_step (tsq : R) (reg : option registration) (st : list env * list nat) (i j : nat) : option (list env * list nat) :=
  match nth_error (fst st) i, nth_error (fst st) j with
  | Some ei, Some ej =>
      match is_similar tsq reg ei ej with
      | Some (rot, vm) =>
          match vm with
          | [] => Some st
          | _ => match mfind (fst st) i with
                 | Some (a, s) => match mfind s j with
                                  | Some (b, s') => if Nat.eqb a b then Some (s', snd st) else merge (s', snd st) i j vm rot
                                  | None => None end
                 | None => None end
          end
      | None => None end
  | _, _ => None
  end.
(* MatchEnv.cc:558-584: the bonds of point [i]; the registration may differ from call to call *)
Fixpoint point_bonds (tsq : R) (reg : nat -> option registration) (i : nat) (bonds : list (nat * nat)) (st : list env * list nat) :
    option (list (nat * nat) * (list env * list nat)) :=
  match bonds with
  | (i', j) :: t => if Nat.eqb i' i
                    then match bond_step tsq (reg (length bonds)) st i j with Some st' => point_bonds tsq reg i t st' | None => None end
                    else Some (bonds, st)
  | [] => Some ([], st)
  end.
Fixpoint all_bonds (tsq : R) (reg : nat -> option registration) (is : list nat) (bonds : list (nat * nat)) (st : list env * list nat) :
    option (list env * list nat) :=
  match is with
  | [] => Some st
  | i :: t => match point_bonds tsq reg i bonds st with Some (rest, st') => all_bonds tsq reg t rest st' | None => None end
  end.

(* MatchEnv.cc:228-239 *)
Fixpoint add_vecs (acc vs : list vec3) : list vec3 :=
  match acc, vs with
  | a :: t, v :: u => vadd a v :: add_vecs t u
  | [], _ => vs
  | _, [] => acc
  end.
(* MatchEnv.cc:202-254  getAvgEnv *)
Definition avg_env (s : list env) (m : nat) : option (list vec3 * list env) :=
  match ofold (fun (st : list vec3 * nat * list env) i =>
                 let '(acc, n, s) := st in
                 match nth_error s i with
                 | Some e => if e_ghost e then Some st
                             else match mfind s (e_ind e) with
                                  | Some (h, s') => if Nat.eqb h m then match proper e with Some v => Some (add_vecs acc v, S n, s') | None => None end
                                                    else Some (acc, n, s')
                                  | None => None end
                 | None => None end) (seq 0 (length s)) ([], 0%nat, s) with
  | Some (acc, n, s') => if Nat.eqb n 0 then None else Some (map (vscale (1 / INR n)) acc, s')
  | None => None
  end.
(* MatchEnv.h:222-311 the results kept by an EnvironmentCluster *)
Record cluster_obj := CO { co_idx : list nat; co_num : nat; co_cenv : list (list vec3); co_penv : list (list vec3) }.
Definition new_cluster_obj : cluster_obj := CO [] 0 [] [].
(** The state of the loop of populateEnv.  [po_cenv] is the map from label to environment (labels are given in increasing order, so the
    map is a list), [cur_set] its length; the labels written so far are [po_idx], [particle_ind] its length. *)
Record pop := PO { po_s : list env; po_map : list (nat * nat); po_cenv : list (list vec3); po_idx : list nat; po_penv : list (list vec3) }.
(* MatchEnv.cc:627-631 and 718-722 *)
Definition push_env (penv : list (list vec3)) (i : nat) (vs : list vec3) : list (list vec3) :=
  let l := penv ++ [[]] in put l i (nth i l [] ++ vs).
(* MatchEnv.cc:602-634 *)
Definition pop_step (st : pop) (i : nat) : option pop :=
  match nth_error (po_s st) i with
  | Some e =>
      if e_ghost e then Some st
      else match proper e, mfind (po_s st) i with
           | Some vs, Some (c, s) =>
               match find (fun p => Nat.eqb (fst p) c) (po_map st) with
               | Some p => Some (PO s (po_map st) (po_cenv st) (po_idx st ++ [snd p]) (push_env (po_penv st) (length (po_idx st)) vs))
               | None => match avg_env s c with
                         | Some (ce, s') => Some (PO s' (po_map st ++ [(c, length (po_cenv st))]) (po_cenv st ++ [ce])
                                                     (po_idx st ++ [length (po_cenv st)]) (push_env (po_penv st) (length (po_idx st)) vs))
                         | None => None end
               end
           | _, _ => None
           end
  | None => None
  end.
(* MatchEnv.cc:592-646  populateEnv *)
Definition populate (s : list env) (o : cluster_obj) : option cluster_obj :=
  option_map (fun p => CO (po_idx p) (length (po_cenv p)) (po_cenv p) (po_penv p))
    (ofold pop_step (seq 0 (length s)) (PO s [] [] [] (co_penv o))).
(* MatchEnv.cc:524-590  EnvironmentCluster::compute.  Indices checked by NeighborList::validate. *)
Definition env_cluster (o : cluster_obj) (np : nat) (ebonds : list ebond) (bonds : list (nat * nat)) (threshold : R)
    (reg : nat -> option registration) : option cluster_obj :=
  let s := build_all (seq 0 np) ebonds in
  match all_bonds (threshold * threshold) reg (seq 0 np) bonds (s, repeat 0%nat np) with
  | Some (s', _) => populate s' o
  | None => None
  end.

(* MatchEnv.h:320-360 *)
Record motif_obj := MO { mo_matches : list bool; mo_penv : list (list vec3) }.
Definition new_motif_obj : motif_obj := MO [] [].
(* MatchEnv.cc:697-723: one particle *)
Definition motif_step (tsq : R) (reg : nat -> option registration) (st : (list env * list nat) * list ebond * list bool * list (list vec3)) (i : nat) :
    option ((list env * list nat) * list ebond * list bool * list (list vec3)) :=
  let '(d, bonds, matches, penv) := st in
  let '(vs, rest) := build_vecs i bonds in
  let s := fst d ++ [new_env (S i) false vs] in
  match nth_error s 0, nth_error s (S i) with
  | Some e0, Some ei =>
      match is_similar tsq (reg i) e0 ei with
      | Some (rot, vm) =>
          match (match vm with [] => Some (s, snd d) | _ => merge (s, snd d) 0 (S i) vm rot end) with
          | Some d' =>
              match nth_error (fst d') (S i) with
              | Some e => match proper e with
                          | Some pv => Some (d', rest, matches ++ [match vm with [] => false | _ => true end], push_env penv i pv)
                          | None => None end
              | None => None end
          | None => None end
      | None => None end
  | _, _ => None
  end.
(* MatchEnv.cc:651-724  EnvironmentMotifMatch::compute *)
Definition motif_match (o : motif_obj) (b : box) (np : nat) (bonds : list ebond) (motif : list vec3) (threshold : R)
    (reg : nat -> option registration) : option motif_obj :=
  let e0 := new_env 0 true (map (wrap b) motif) in
  option_map (fun st => let '(_, _, m, p) := st in MO m p)
    (ofold (motif_step (threshold * threshold) reg) (seq 0 np) (([e0], repeat 0%nat (S np)), bonds, [], mo_penv o)).

(* environment.py:595-642 (_is_similar_motif) with MatchEnv.cc:363-385 (isSimilar) and 387-413 (makeEnvironments): the returned points and map *)
Definition is_similar_py (b : box) (ref pts : list vec3) (threshold : R) (reg : option registration) : option (list vec3 * bimap) :=
  if negb (Nat.eqb (length ref) (length pts)) then None
  else match is_similar (threshold * threshold) reg (new_env 0 true (map (wrap b) ref)) (new_env 1 true (map (wrap b) pts)) with
       | Some (rot, vm) => Some (map (rapply rot) (map (wrap b) pts), vm)
       | None => None
       end.
