(** Model in single precision of the k-nearest-neighbour query of AABBQuery: AABBQueryIterator (freud/locality/AABBQuery.cc:151-275,
    AABBQuery.h:107-152) and the defaults of its arguments (NeighborQuery.h:236-270).  Numbers as in FaabbModel.
    Simplified: std::map and std::unordered_set are association lists and duplicate-free lists (their iteration order is lost in the
    following sort); std::sort is any result meeting its contract; cbrtf is any function; sizes are unbounded. *)
From Coq Require Import ZArith Permutation.
From Flocq Require Import Core BinarySingleNaN.
From Verif Require Export FaabbModel.
Open Scope nat_scope.

(** std::min, std::max: the first operand unless the second is strictly smaller (greater). *)
Definition std_min (a b : f32) : f32 := if Bltb b a then b else a.
Definition std_max (a b : f32) : f32 := if Bltb a b then b else a.
Definition ftwo : f32 := lit 2 0.
Definition fbond0 : fbond := FBond 0 0 fzero fv0.

(* AABBQuery.cc:153-160 *)
Definition fmin_plane (b : fbox) : f32 :=
  let p := fplanes b in let m := std_min (fvx p) (fvy p) in if f2d b then m else std_min m (fvz p).
Definition fmax_plane (b : fbox) : f32 :=
  let p := fplanes b in let m := std_max (fvx p) (fvy p) in if f2d b then m else std_max m (fvz p).

(* NeighborBond.h:62-65  operator<, used by std::sort: some permutation in which no later element is less than an earlier one *)
Definition fless (x y : fbond) : bool := Bltb (fb_d x) (fb_d y).
Definition fsort_result (l s : list fbond) : Prop :=
  Permutation l s /\ forall i j, i < j < length s -> fless (nth j s fbond0) (nth i s fbond0) = false.

(** m_all_bonds_minimum_distance and m_query_points_below_r_min *)
Fixpoint ffind (m : list (nat * fbond)) (k : nat) : option fbond :=
  match m with [] => None | (k', v) :: m => if k =? k' then Some v else ffind m k end.
Fixpoint fput (m : list (nat * fbond)) (k : nat) (v : fbond) : list (nat * fbond) :=
  match m with [] => [(k, v)] | (k', v') :: m => if k =? k' then (k, v) :: m else (k', v') :: fput m k v end.
Definition finsert (s : list nat) (k : nat) : list nat := if existsb (Nat.eqb k) s then s else k :: s.
(* AABBQuery.cc:198-210  one bond when the search is extended *)
Definition fkeep (r_min : f32) (st : list (nat * fbond) * list nat) (x : fbond) : list (nat * fbond) * list nat :=
  let '(m, below) := st in
  if match ffind m (fb_p x) with None => true | Some y => Bltb (fb_d x) (fb_d y) end
  then (fput m (fb_p x) x, if Bltb (fb_d x) r_min then finsert below (fb_p x) else below)
  else st.
(* AABBQuery.cc:181-219  what one ball query leaves in the members *)
Definition fcollect (ext : bool) (qi : nat) (r_min : f32) (excl : bool) (found : list fbond) : list fbond * (list (nat * fbond) * list nat) :=
  let l := filter (fun x => negb excl || negb (qi =? fb_p x)) found in
  if ext then ([], fold_left (fkeep r_min) l ([], [])) else (filter (fun x => Bleb r_min (fb_d x)) l, ([], [])).
(* AABBQuery.cc:172-262  the search loop, from the extended flag and the current radius to the sorted neighbours.
   None: an exception of the inner ball iterator.  A loop that does not end has no outcome. *)
Inductive fsearch (b : fbox) (points : list fvec) (q : fvec) (qi k : nat) (r_max r_min scale : f32) (excl : bool)
    : bool -> f32 -> option (list fbond) -> Prop :=
| fs_raise ext r : faabb_ball b points q qi (std_min r r_max) fzero excl false None ->
    fsearch b points q qi k r_max r_min scale excl ext r None
| fs_enough ext r found cur m below s :
    faabb_ball b points q qi (std_min r r_max) fzero excl false (Some found) -> fcollect ext qi r_min excl found = (cur, (m, below)) ->
    k <= length cur -> fsort_result cur s ->
    fsearch b points q qi k r_max r_min scale excl ext r (Some s)
| fs_stop ext r found cur m below s :
    faabb_ball b points q qi (std_min r r_max) fzero excl false (Some found) -> fcollect ext qi r_min excl found = (cur, (m, below)) ->
    length cur < k ->
    Bleb r_max (fmul r scale) || Bleb (fmax_plane b) (fmul r scale) || (k <=? length m - length below) = true ->
    fsort_result (cur ++ filter (fun x => Bleb r_min (fb_d x)) (map snd m)) s ->
    fsearch b points q qi k r_max r_min scale excl ext r (Some s)
| fs_again ext r found cur m below res :
    faabb_ball b points q qi (std_min r r_max) fzero excl false (Some found) -> fcollect ext qi r_min excl found = (cur, (m, below)) ->
    length cur < k ->
    Bleb r_max (fmul r scale) || Bleb (fmax_plane b) (fmul r scale) || (k <=? length m - length below) = false ->
    fsearch b points q qi k r_max r_min scale excl (ext || Bltb (fdiv (fmin_plane b) ftwo) (fmul r scale)) (fmul r scale) res ->
    fsearch b points q qi k r_max r_min scale excl ext r res.
(* AABBQuery.cc:264-275  return at most k, stop at the first one beyond r_max *)
Fixpoint fwithin (r_max : f32) (l : list fbond) : list fbond :=
  match l with [] => [] | x :: l => if Bltb r_max (fb_d x) then [] else x :: fwithin r_max l end.
Definition fdeliver (k : nat) (r_max : f32) (s : list fbond) : list fbond := fwithin r_max (firstn k s).
(* NeighborQuery.h:318-333, AABBQuery.h:112-121, AABBQuery.cc:151-275  the iterator with given arguments.  None: an exception. *)
Definition fnearest (b : fbox) (points : list fvec) (q : fvec) (qi k : nat) (r_guess r_max r_min scale : f32) (excl : bool) (res : option (list fbond)) : Prop :=
  if fpoint_args_ok r_max r_min then
    match fimages b fzero true with
    | None => res = None
    | Some _ => exists s, fsearch b points q qi k r_max r_min scale excl false r_guess s /\ res = option_map (fdeliver k r_max) s
    end
  else res = None.

(* NeighborQuery.h:44-50, 62-72  the arguments of a nearest query: -1 stands for an argument that was not given *)
Definition fdefault : f32 := lit (-1) 0.
Record fargs := FArgs { fq_k : nat; fq_rmax : f32; fq_rmin : f32; fq_guess : f32; fq_scale : f32; fq_excl : bool }.
(* Box.h:198-205 *)
Definition fvolume (b : fbox) : f32 :=
  let a := fmul (fvx (fL b)) (fvy (fL b)) in if f2d b then a else fmul a (fvz (fL b)).
Definition fpi : f32 := lit 13176795 (-22).
(* NeighborQuery.h:255-257 *)
Definition fdensity_guess (cbrt : f32 -> f32) (b : fbox) (n k : nat) : f32 :=
  cbrt (fdiv (fmul (fmul (lit 3 0) (lit (Z.of_nat k) 0)) (fvolume b)) (fmul (fmul (lit 4 0) fpi) (lit (Z.of_nat n) 0))).
(* NeighborQuery.h:217-221 and 236-270  validateQueryArgs, validateNearestNeighborArgs.  None: an exception. *)
Definition fvalidate (cbrt : f32 -> f32) (b : fbox) (n : nat) (a : fargs) : option fargs :=
  let r_max := if Beqb (fq_rmax a) fdefault then B754_infinity false else fq_rmax a in
  let guess := if Beqb (fq_guess a) fdefault then std_min (fdensity_guess cbrt b n (fq_k a)) (fdiv (fmin_plane b) ftwo) else fq_guess a in
  let go scale := Some (FArgs (fq_k a) r_max (fq_rmin a) (std_min guess r_max) scale (fq_excl a)) in
  if Beqb (fq_scale a) fdefault then go (lit 9227469 (-23)) else if Bleb (fq_scale a) fone then None else go (fq_scale a).
(* NeighborQuery.h:130-142, AABBQuery.cc:32-46  query of one point: pair queries need a periodic box *)
Definition fquery_nearest (cbrt : f32 -> f32) (b : fbox) (points : list fvec) (q : fvec) (qi : nat) (a : fargs) (res : option (list fbond)) : Prop :=
  if negb (fpx b && fpy b && fpz b) then res = None
  else match fvalidate cbrt b (length points) a with
       | None => res = None
       | Some a => fnearest b points q qi (fq_k a) (fq_guess a) (fq_rmax a) (fq_rmin a) (fq_scale a) (fq_excl a) res
       end.
