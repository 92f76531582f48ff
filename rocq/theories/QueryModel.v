(** Model of query arguments and the query pipeline: freud/locality.py (_QueryArgs, NeighborQuery.query), NeighborQuery.h
    (QueryArgs, validateQueryArgs, validateNearestNeighborArgs, inferMode, query, NeighborQueryIterator), the overrides in
    AABBQuery.h, CellQuery.h/.cc, LinkCell.cc and RawPoints.h.
    Simplifications: floats are exact reals ([Inf] for the infinite default of r_max, which Python users are assumed not to
    pass themselves); a query without query points (which reads past the array) has no outcome; an exception in any
    per-point iterator is an exception of the whole query. *)
From Verif Require Export KnnModel CellQueryModel.
Open Scope R_scope.

(* NeighborQuery.h:36-41, 60-73 *)
Inductive mode := MNone | MBall | MNearest.
Record qargs := QA { qa_mode : mode; qa_k : Z; qa_rmax : xreal; qa_rmin : R; qa_rguess : R; qa_scale : R; qa_excl : bool }.
(* NeighborQuery.h:43-50 *)
Definition default_k : Z := 4294967295.
Definition qargs0 : qargs := QA MNone default_k (Fin (-1)) 0 (-1) (-1) false.
Definition is_default (x : xreal) : bool := match x with Fin r => Reqb r (-1) | Inf => false end.

(** The keyword arguments of a Python query: [None] is an argument not given (or given as None). *)
Inductive pymode := PyNone | PyStrNone | PyBall | PyNearest | PyOther.
Record pyargs := PA { pa_mode : pymode; pa_rmax : option R; pa_rmin : option R; pa_rguess : option R; pa_k : option Z;
  pa_excl : option bool; pa_scale : option R; pa_unknown : bool }.
(* locality.py:49-77, 107-117  _QueryArgs.__init__; None: ValueError, or TypeError of the unsigned conversion *)
Definition encode (p : pyargs) : option qargs :=
  match match pa_mode p with PyNone | PyStrNone => Some MNone | PyBall => Some MBall | PyNearest => Some MNearest | PyOther => None end with
  | None => None
  | Some m =>
      match match pa_k p with None => Some default_k | Some k => if (0 <=? k)%Z && (k <? 2 ^ 32)%Z then Some k else None end with
      | None => None
      | Some k =>
          if pa_unknown p then None else
          Some (QA m k (match pa_rmax p with Some r => Fin r | None => qa_rmax qargs0 end)
                  (match pa_rmin p with Some r => r | None => qa_rmin qargs0 end)
                  (match pa_rguess p with Some r => r | None => qa_rguess qargs0 end)
                  (match pa_scale p with Some r => r | None => qa_scale qargs0 end)
                  (match pa_excl p with Some e => e | None => qa_excl qargs0 end))
      end
  end.

(* NeighborQuery.h:278-292 *)
Definition infer_mode (a : qargs) : qargs :=
  let set m := QA m (qa_k a) (qa_rmax a) (qa_rmin a) (qa_rguess a) (qa_scale a) (qa_excl a) in
  match qa_mode a with
  | MNone => if negb (Z.eqb (qa_k a) default_k) then set MNearest else if negb (is_default (qa_rmax a)) then set MBall else a
  | _ => a
  end.
(* NeighborQuery.h:195-228; None: std::runtime_error *)
Definition validate_base (a : qargs) : option qargs :=
  let a := infer_mode a in
  match qa_mode a with
  | MBall => if is_default (qa_rmax a) then None else if negb (Z.eqb (qa_k a) default_k) then None else Some a
  | MNearest => if Z.eqb (qa_k a) default_k then None
                else Some (if is_default (qa_rmax a) then QA (qa_mode a) (qa_k a) Inf (qa_rmin a) (qa_rguess a) (qa_scale a) (qa_excl a) else a)
  | MNone => None
  end.
(* NeighborQuery.h:235-270; float(1.1) is taken as the real 1.1 *)
Definition validate_near (b : box) (n : nat) (a : qargs) : option qargs :=
  match (if Reqb (qa_scale a) (-1) then Some (11 / 10) else if Rleb (qa_scale a) 1 then None else Some (qa_scale a)) with
  | None => None
  | Some scale =>
      let g := if Reqb (qa_rguess a) (-1)
               then Rmin (cbrt (3 * IZR (qa_k a) * volume b / (4 * PI * INR n))) (min_plane b / 2) else qa_rguess a in
      Some (QA (qa_mode a) (qa_k a) (qa_rmax a) (qa_rmin a) (xmin g (qa_rmax a)) scale (qa_excl a))
  end.
(* AABBQuery.h:62-69 *)
Definition validate_aabb (b : box) (n : nat) (a : qargs) : option qargs :=
  match validate_base a with
  | None => None
  | Some a => match qa_mode a with MNearest => validate_near b n a | _ => Some a end
  end.
(* CellQuery.h:177-203 *)
Definition validate_cell (b : box) (a : qargs) : option qargs :=
  match validate_base a with
  | None => None
  | Some a => match qa_mode a with
              | MNearest => None
              | _ => match qa_rmax a with Fin r => if cq_args_ok b r (qa_rmin a) then Some a else None | Inf => None end
              end
  end.

(** AABBQuery, LinkCell (with the cell_width given to the constructor), CellQuery, and the _RawPoints made from a
    (box, points) pair. *)
Inductive backend := BAABB | BLink (cell_width : R) | BCell | BRaw.
(** Validation in query() and again in querySingle() (RawPoints.h:49-78 delegates the latter to its AABBQuery). *)
Definition validate_query (be : backend) (b : box) (n : nat) (a : qargs) : option qargs :=
  match be with BAABB => validate_aabb b n a | BLink _ => validate_base a | BCell => validate_cell b a | BRaw => validate_base a end.
Definition validate_single (be : backend) (b : box) (n : nat) (a : qargs) : option qargs :=
  match be with BAABB => validate_aabb b n a | BLink _ => validate_base a | BCell => validate_cell b a | BRaw => validate_aabb b n a end.
(** The constructor of the query object succeeds. *)
Definition constructed (be : backend) (b : box) (points : list vec3) : Prop :=
  nq_ok b points = true /\ match be with BLink cw => lc_make b points cw <> None | _ => True end.

(* AABBQuery.cc:30-46, LinkCell.cc:479-494, CellQuery.cc:36-46, RawPoints.h:66-78: querySingle, drained *)
Definition single (be : backend) (b : box) (points : list vec3) (a : qargs) (q : vec3) (qi : nat) (res : option (list bond)) : Prop :=
  match validate_single be b (length points) a with
  | None => res = None
  | Some a =>
      match qa_mode a with
      | MNone => res = None
      | MBall =>
          match qa_rmax a with
          | Inf => False
          | Fin r =>
              match be with
              | BAABB | BRaw => aabb_ball b points q qi r (qa_rmin a) (qa_excl a) true res
              | BLink cw => match lc_make b points cw with Some lc => lc_ball lc q qi r (qa_rmin a) (qa_excl a) res | None => False end
              | BCell => cq_ball b points q qi r (qa_rmin a) (qa_excl a) res
              end
          end
      | MNearest =>
          let k := Z.to_nat (qa_k a) in
          match be with
          | BAABB | BRaw => aabb_nearest b points q qi k (qa_rguess a) (qa_rmax a) (qa_rmin a) (qa_scale a) (qa_excl a) res
          | BLink cw => match lc_make b points cw with Some lc => lk_nearest lc q qi k (qa_rmax a) (qa_rmin a) (qa_excl a) res | None => False end
          | BCell => res = None
          end
      end
  end.
(* NeighborQuery.h:361-420, 434-459: the per-point iterators in turn; None: some iterator raised *)
Inductive drain_all (run : vec3 -> nat -> option (list bond) -> Prop) : nat -> list vec3 -> option (list (list bond)) -> Prop :=
| da_nil i : drain_all run i [] (Some [])
| da_raise i q qs : run q i None -> drain_all run i (q :: qs) None
| da_cons i q qs l r : run q i (Some l) -> drain_all run (S i) qs r -> drain_all run i (q :: qs) (option_map (cons l) r).
(* NeighborQuery.h:130-142, RawPoints.h:49-63, CellQuery.cc:17-34.  The periodicity test is in NeighborQuery::query only. *)
Definition checks_periodic (be : backend) : bool := match be with BAABB | BLink _ => true | BCell | BRaw => false end.
Definition nq_query (be : backend) (b : box) (points qs : list vec3) (a : qargs) (res : option (list (list bond))) : Prop :=
  constructed be b points /\ qs <> [] /\
  if checks_periodic be && negb (b_px b && b_py b && b_pz b) then res = None
  else match validate_query be b (length points) a with
       | None => res = None
       | Some a => drain_all (single be b points a) 0 qs res
       end.
(* locality.py:395-411 NeighborQuery.query and NeighborQueryResult 184-243 *)
Definition py_query (be : backend) (b : box) (points qs : list vec3) (p : pyargs) (res : option (list (list bond))) : Prop :=
  match encode p with None => res = None | Some a => nq_query be b points qs a res end.
