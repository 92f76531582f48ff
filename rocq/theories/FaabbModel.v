(** Model in single precision of freud/locality/AABB.h, AABBTree.h (build, skip pointers), AABBQuery.cc (ball iterator) and of the image
    vectors of NeighborQuery.h: IEEE-754 binary32 with one NaN, rounding to nearest even, SSE semantics of min and max, without fused
    operations or excess precision.
    Simplified as in AABBModel: the array of boxes and the array of indices are one list of pairs; node particle arrays are lists;
    reverse mapping, update() and height() are left out. *)
From Coq Require Import ZArith.
From Flocq Require Import Core BinarySingleNaN.
From Verif Require Export NListModel F32Model.
Open Scope nat_scope.

Definition fv0 : fvec := FV fzero fzero fzero.
(* VectorMath.h:65-83 *)
Definition fvadd (a b : fvec) : fvec := FV (fadd (fvx a) (fvx b)) (fadd (fvy a) (fvy b)) (fadd (fvz a) (fvz b)).
Definition fvsub (a b : fvec) : fvec := FV (fsub (fvx a) (fvx b)) (fsub (fvy a) (fvy b)) (fsub (fvz a) (fvz b)).
(* VectorMath.h:184-199 *)
Definition fvscale (k : f32) (a : fvec) : fvec := FV (fmul (fvx a) k) (fmul (fvy a) k) (fmul (fvz a) k).
(* VectorMath.h:270-273 *)
Definition fnorm2 (a : fvec) : f32 := fadd (fadd (fmul (fvx a) (fvx a)) (fmul (fvy a) (fvy a))) (fmul (fvz a) (fvz a)).

(** _mm_min_ps, _mm_max_ps: the second operand unless the first is strictly smaller (greater). *)
Definition sse_min (a b : f32) : f32 := if Bltb a b then a else b.
Definition sse_max (a b : f32) : f32 := if Bltb b a then a else b.

(* AABB.h:60-72, 139-152 *)
Record faabb := FAB { fa_lo : fvec; fa_hi : fvec; fa_tag : nat }.
Definition faabb0 : faabb := FAB fv0 fv0 0.
Definition faabb_point (p : fvec) (tag : nat) : faabb := FAB p p tag.
(* AABB.h:155-167  getPosition *)
Definition faabb_pos (a : faabb) : fvec := fvscale (lit 1 (-1)) (fvadd (fa_lo a) (fa_hi a)).
(* AABB.h:393-413  merge *)
Definition fvmin (a b : fvec) : fvec := FV (sse_min (fvx a) (fvx b)) (sse_min (fvy a) (fvy b)) (sse_min (fvz a) (fvz b)).
Definition fvmax (a b : fvec) : fvec := FV (sse_max (fvx a) (fvx b)) (sse_max (fvy a) (fvy b)) (sse_max (fvz a) (fvz b)).
Definition fmerge (a b : faabb) : faabb := FAB (fvmin (fa_lo a) (fa_lo b)) (fvmax (fa_hi a) (fa_hi b)) 0.
(* AABB.h:335-356  overlap of a box and a sphere; the fourth lane is zero (20-31) and the horizontal sum is (x + y) + (z + w) *)
Definition fclamp_delta (p lo hi : f32) : f32 := fsub (sse_min (sse_max p lo) hi) p.
Definition foverlap (a : faabb) (c : fvec) (r : f32) : bool :=
  let dx := fclamp_delta (fvx c) (fvx (fa_lo a)) (fvx (fa_hi a)) in
  let dy := fclamp_delta (fvy c) (fvy (fa_lo a)) (fvy (fa_hi a)) in
  let dz := fclamp_delta (fvz c) (fvz (fa_lo a)) (fvz (fa_hi a)) in
  let dw := fclamp_delta fzero fzero fzero in
  Bltb (fadd (fadd (fmul dx dx) (fmul dy dy)) (fadd (fmul dz dz) (fmul dw dw))) (fmul r r).

(* AABBTree.h:33-58 ; None is INVALID_NODE *)
Definition CAPACITY : nat := 16.
Record fnode := FNode { fn_box : faabb; fn_left : option nat; fn_right : option nat; fn_parent : option nat;
                        fn_skip : nat; fn_tags : list nat }.
Definition fnode0 : fnode := FNode faabb0 None None None 0 [].
Definition fis_leaf (n : fnode) : bool := match fn_left n with None => true | Some _ => false end.

Definition fswap {T} (d : T) (l : list T) (i j : nat) : list T := upd (upd l i (nth j l d)) j (nth i l d).

(* AABBTree.h:455-519: quick-sort style partition.  None: the loop did not stop within the fuel. *)
Fixpoint fpart (fuel : nat) (axis : fvec -> f32) (mid : f32) (arr : list faabb) (start i sr : nat) : option (list faabb * nat) :=
  if i <? sr then
    match fuel with
    | O => None
    | S fuel =>
        if Bltb (axis (faabb_pos (nth (start + i) arr faabb0))) mid
        then fpart fuel axis mid arr start (S i) sr
        else fpart fuel axis mid (fswap faabb0 arr (start + i) (start + sr - 1)) start i (sr - 1)
    end
  else Some (arr, sr).

(* AABBTree.h:409-547  buildNode.  None: out of fuel. *)
Fixpoint fbuild (fuel : nat) (arr : list faabb) (nodes : list fnode) (start len : nat) (parent : option nat) : option (nat * list faabb * list fnode) :=
  match fuel with
  | O => None
  | S fuel =>
      let my := fold_left (fun m i => fmerge m (nth (start + i) arr faabb0)) (seq 1 (len - 1)) (nth start arr faabb0) in
      if len <=? CAPACITY then
        Some (length nodes, arr, nodes ++ [FNode my None None parent 0 (map fa_tag (firstn len (skipn start arr)))])
      else
        let my_idx := length nodes in
        let nodes := nodes ++ [fnode0] in
        let radius := fvsub (fa_hi my) (fa_lo my) in
        let axis := if Bltb (fvy radius) (fvx radius) && Bltb (fvz radius) (fvx radius) then fvx
                    else if Bltb (fvz radius) (fvy radius) then fvy else fvz in
        match (if len =? 2 then Some (arr, len) else fpart len axis (axis (faabb_pos my)) arr start 0 len) with
        | None => None
        | Some (arr, sr) =>
            let sr := if sr =? len then len - 1 else sr in
            let sr := if sr =? 0 then 1 else sr in
            match fbuild fuel arr nodes start sr (Some my_idx) with
            | None => None
            | Some (l, arr, nodes) =>
                match fbuild fuel arr nodes (start + sr) (len - sr) (Some my_idx) with
                | None => None
                | Some (r, arr, nodes) => Some (my_idx, arr, upd nodes my_idx (FNode my (Some l) (Some r) parent 0 []))
                end
            end
        end
  end.

(* AABBTree.h:556-572  updateSkip *)
Fixpoint fskip (fuel : nat) (nodes : list fnode) (idx : nat) : option (nat * list fnode) :=
  match fuel with
  | O => None
  | S fuel =>
      let n := nth idx nodes fnode0 in
      match fn_left n, fn_right n with
      | Some l, Some r =>
          match fskip fuel nodes l with
          | None => None
          | Some (a, nodes) =>
              match fskip fuel nodes r with
              | None => None
              | Some (b, nodes) =>
                  let n := nth idx nodes fnode0 in
                  Some (a + b + 1, upd nodes idx (FNode (fn_box n) (fn_left n) (fn_right n) (fn_parent n) (a + b) (fn_tags n)))
              end
          end
      | _, _ => Some (1, nodes)
      end
  end.

(* AABBTree.h:380-393  buildTree ; AABBQuery.cc:54-71: z forced to 0 in 2D, tags are indices *)
Definition fflat (b : fbox) (p : fvec) : fvec := if f2d b then FV (fvx p) (fvy p) fzero else p.
Definition ftree (b : fbox) (points : list fvec) : option (list fnode) :=
  let N := length points in
  match fbuild N (map (fun ip => faabb_point (fflat b (snd ip)) (fst ip)) (combine (seq 0 N) points)) [] 0 N None with
  | None => None
  | Some (root, _, nodes) => option_map snd (fskip (length nodes) nodes root)
  end.

(* Box.h:503-518 *)
Definition flattice (b : fbox) (i : nat) : fvec :=
  match i with
  | 0 => FV (fvx (fL b)) fzero fzero
  | 1 => FV (fmul (fvy (fL b)) (fxy b)) (fvy (fL b)) fzero
  | _ => FV (fmul (fvz (fL b)) (fxz b)) (fmul (fvz (fL b)) (fyz b)) (fvz (fL b))
  end.
(* Box.h:489-497 *)
Definition fplanes (b : fbox) : fvec :=
  let t := fsub (fmul (fxy b) (fyz b)) (fxz b) in
  FV (fdiv (fvx (fL b)) (Bsqrt mode_NE (fadd (fadd fone (fmul (fxy b) (fxy b))) (fmul t t))))
     (fdiv (fvy (fL b)) (Bsqrt mode_NE (fadd fone (fmul (fyz b) (fyz b))))) (fvz (fL b)).
(* NeighborQuery.h:496-565  updateImageVectors.  None: the exception for a too large radius (r_max * 2.0 is a double: doubling rounds only on overflow). *)
Definition fimage_check (b : fbox) (r : f32) : bool :=
  let p := fplanes b in let d := fmul r (lit 2 0) in
  (fpx b && Bleb (fvx p) d) || (fpy b && Bleb (fvy p) d) || (negb (f2d b) && fpz b && Bleb (fvz p) d).
Definition fn_images (b : fbox) : nat :=
  Nat.pow 3 ((if fpx b then 1 else 0) + (if fpy b then 1 else 0) + (if f2d b then 0 else if fpz b then 1 else 0)).
Definition fimage_step (b : fbox) (total : nat) (acc : list fvec) (t : Z * Z * Z) : list fvec :=
  let '(i, j, k) := t in
  if negb (length acc <? total) then acc
  else if (Z.eqb i 0 && Z.eqb j 0 && Z.eqb k 0) then acc
  else if (negb (Z.eqb i 0) && negb (fpx b)) || (negb (Z.eqb j 0) && negb (fpy b)) ||
          (negb (Z.eqb k 0) && (f2d b || negb (fpz b))) then acc
  else acc ++ [fvadd (fvadd (fvscale (lit i 0) (flattice b 0)) (fvscale (lit j 0) (flattice b 1)))
                     (fvscale (lit k 0) (if f2d b then fv0 else flattice b 2))].
Definition ftriples : list (Z * Z * Z) :=
  flat_map (fun i => flat_map (fun j => map (fun k => (i, j, k)) [-1; 0; 1]%Z) [-1; 0; 1]%Z) [-1; 0; 1]%Z.
Definition fimages (b : fbox) (r : f32) (check : bool) : option (list fvec) :=
  if check && fimage_check b r then None else Some (fold_left (fimage_step b (fn_images b)) ftriples [fv0]).

(** A bond: query point, point, distance, vector (the weight is always 1). *)
Record fbond := FBond { fb_q : nat; fb_p : nat; fb_d : f32; fb_r : fvec }.
(* AABBQuery.h:166-180 member state of AABBQueryBallIterator *)
Record fball_state := FBS { fs_img : nat; fs_node : nat; fs_ref : nat }.
Inductive fball_event := FEmit (x : fbond) (s : fball_state) | FGo (s : fball_state) | FFinished.
(* AABBQuery.cc:79-149  one turn of the nested loops of AABBQueryBallIterator::next *)
Definition fball_step (b : fbox) (points : list fvec) (nodes : list fnode) (images : list fvec)
    (q : fvec) (qi : nat) (r_max r_min : f32) (excl : bool) (s : fball_state) : fball_event :=
  if fs_img s <? length images then
    let pos_i := fvadd (fflat b q) (nth (fs_img s) images fv0) in
    if fs_node s <? length nodes then
      let n := nth (fs_node s) nodes fnode0 in
      if foverlap (fn_box n) pos_i r_max then
        if fis_leaf n && (fs_ref s <? length (fn_tags n)) then
          let j := nth (fs_ref s) (fn_tags n) 0 in
          let s' := FBS (fs_img s) (fs_node s) (S (fs_ref s)) in
          if excl && (qi =? j) then FGo s'
          else
            let r_ij := fvsub (fflat b (nth j points fv0)) pos_i in
            let r_sq := fnorm2 r_ij in
            if Bltb r_sq (fmul r_max r_max) && Bleb (fmul r_min r_min) r_sq
            then FEmit (FBond qi j (Bsqrt mode_NE r_sq) r_ij) s'
            else FGo s'
        else FGo (FBS (fs_img s) (S (fs_node s)) 0)
      else FGo (FBS (fs_img s) (S (fs_node s + fn_skip n)) 0)
    else FGo (FBS (S (fs_img s)) 0 (fs_ref s))
  else FFinished.
(** next(): run until a bond is returned or the search is over.  None: out of fuel. *)
Fixpoint fball_next (fuel : nat) (step : fball_state -> fball_event) (s : fball_state) : option (option fbond * fball_state) :=
  match fuel with
  | O => None
  | S fuel => match step s with
              | FEmit x s => Some (Some x, s)
              | FGo s => fball_next fuel step s
              | FFinished => Some (None, s)
              end
  end.
(** while (!it.end()) { nb = it.next(); if (nb != ITERATOR_TERMINATOR) use(nb) }  (NeighborQuery.h:447-459) *)
Fixpoint fball_drain (fuel : nat) (step : fball_state -> fball_event) (s : fball_state) : option (list fbond) :=
  match fuel with
  | O => None
  | S f => match fball_next fuel step s with
           | None => None
           | Some (None, _) => Some []
           | Some (Some x, s) => option_map (cons x) (fball_drain f step s)
           end
  end.
Definition fdrains (step : fball_state -> fball_event) (s : fball_state) (res : list fbond) : Prop :=
  exists fuel, fball_drain fuel step s = Some res.

(* NeighborQuery.h:318-333, AABBQuery.h:144-165, AABBQuery.cc:32-52: ball query of one point.  None: an exception. *)
Definition fpoint_args_ok (r_max r_min : f32) : bool := negb (Bleb r_max fzero) && negb (Bleb r_max r_min).
Definition faabb_ball (b : fbox) (points : list fvec) (q : fvec) (qi : nat) (r_max r_min : f32) (excl check : bool) (res : option (list fbond)) : Prop :=
  if fpoint_args_ok r_max r_min then
    match fimages b r_max check, ftree b points with
    | Some images, Some nodes =>
        exists l, res = Some l /\ fdrains (fball_step b points nodes images q qi r_max r_min excl) (FBS 0 0 0) l
    | _, _ => res = None
    end
  else res = None.
