(** Model of freud/util/Histogram.h (RegularAxis, Histogram, ThreadLocalHistogram), freud/util/ThreadStorage.h
    and freud/locality/BondHistogramCompute.h.  Bin contents live in any type with an addition, so that counters
    modulo 2^32 (unsigned int) and real weights are both instances. *)
From Verif Require Export RBase MArrayModel ParModel.
Open Scope Z_scope.

Definition bind {A B} (o : option A) (f : A -> option B) : option B := match o with Some a => f a | None => None end.

(* Histogram.h:107  sentinel *)
Definition OVERFLOW_BIN : Z := 4294967295.

(* Histogram.h:123-179  RegularAxis *)
Record axis := Axis { ax_n : Z; ax_min : R; ax_max : R }.
(* Histogram.h:129-130 *)
Definition bin_width (a : axis) : R := ((ax_max a - ax_min a) / IZR (ax_n a))%R.
Definition inverse_bin_width (a : axis) : R := (1 / bin_width a)%R.
(* Histogram.h:132-137 *)
Definition bin_edge (a : axis) (i : Z) : R := (ax_min a + IZR i * bin_width a)%R.
Definition bin_edges (a : axis) : list R := map (fun i => bin_edge a (Z.of_nat i)) (seq 0 (S (Z.to_nat (ax_n a)))).
(* Histogram.h:87-95 *)
Definition bin_centers (a : axis) : list R :=
  map (fun i => ((nth i (bin_edges a) 0 + nth (i + 1) (bin_edges a) 0) / 2)%R) (seq 0 (Z.to_nat (ax_n a))).
(* Histogram.h:152-174  bin; float-to-int truncation is Ztrunc (n below 2^31) *)
Definition axis_bin (a : axis) (v : R) : Z :=
  if Rltb v (ax_min a) || Rleb (ax_max a) v then OVERFLOW_BIN
  else
    let b := Ztrunc ((v - ax_min a) * inverse_bin_width a)%R in
    if b =? ax_n a then b - 1 else b.

(* Histogram.h:327-348  bins along each axis, sentinel as soon as one overflows; None = overflow *)
Fixpoint axes_bins (axes : list axis) (vals : list R) : option (list Z) :=
  match axes, vals with
  | a :: axes, v :: vals =>
      let b := axis_bin a v in
      if b =? OVERFLOW_BIN then None
      else match axes_bins axes vals with Some l => Some (b :: l) | None => None end
  | _, _ => Some []
  end.

Section Hist.
  Context {T : Type} (zero : T) (op : T -> T -> T).

  (* Histogram.h:289-295, 478-479 *)
  Record hist := Hist { h_axes : list axis; h_counts : marray T }.
  Definition hist_make (axes : list axis) : hist := Hist axes (ma_make zero (map ax_n axes)).

  (* Histogram.h:327-351  bin; outer None models std::invalid_argument *)
  Definition hist_bin (h : hist) (vals : list R) : option Z :=
    if negb (Nat.eqb (length vals) (length (h_axes h))) then None
    else match axes_bins (h_axes h) vals with
         | None => Some OVERFLOW_BIN
         | Some l => get_index (ma_shape (h_counts h)) l
         end.

  (* Histogram.h:313-320  increment *)
  Definition hist_increment (h : hist) (k : Z) (w : T) : option hist :=
    if k =? OVERFLOW_BIN then Some h
    else bind (ma_get (h_counts h) k) (fun x =>
         bind (ma_set (h_counts h) k (op x w)) (fun c => Some (Hist (h_axes h) c))).

  (* Histogram.h:301-310  operator() *)
  Definition hist_add (h : hist) (vals : list R) (w : T) : option hist :=
    bind (hist_bin h vals) (fun k => hist_increment h k w).

  Definition hist_add_all (samples : list (list R * T)) (h : hist) : option hist :=
    fold_left (fun o s => bind o (fun h => hist_add h (fst s) (snd s))) samples (Some h).

  (* Histogram.h:372-375 *)
  Definition hist_reset (h : hist) : hist := Hist (h_axes h) (ma_reset zero (h_counts h)).

  (* Histogram.h:270-276  one result bin: add the bin of every local array *)
  Definition reduce_one (ls : list (marray T)) (i : Z) (r : marray T) : option (marray T) :=
    fold_left (fun o a => bind o (fun r => bind (ma_get r i) (fun x => bind (ma_get a i) (fun y => ma_set r i (op x y)))))
              ls (Some r).
  Definition reduce_events (ls : list (marray T)) (ev : list (nat * nat)) (r : marray T) : option (marray T) :=
    fold_left (fun o e => bind o (reduce_one ls (Z.of_nat (snd e)))) ev (Some r).

  (* Histogram.h:266-278  ThreadLocalHistogram::reduceInto; [ev] is the execution of the parallel loop over bins *)
  Definition tlh_reduce_into (ls : list (marray T)) (ev : list (nat * nat)) (r : marray T) : option (marray T) :=
    reduce_events ls ev (ma_reset zero r).

  (* ThreadStorage.h:98-120  reduceInto: resets only when no thread-local array exists *)
  Definition ts_reduce_into (ls : list (marray T)) (ev : list (nat * nat)) (r : marray T) : option (marray T) :=
    match ls with
    | [] => Some (ma_reset zero r)
    | _ => reduce_events ls ev r
    end.

  (** Parallel accumulation: iteration i feeds [samples i] to the executing thread's local histogram
      (Histogram.h:254-263).  A thread that hit an exception carries None. *)
  Definition accumulate (axes : list axis) (samples : nat -> list (list R * T)) (ev : list (nat * nat))
             (ls : locals (option hist)) : locals (option hist) :=
    run_local (Some (hist_make axes)) (fun i o => bind o (hist_add_all (samples i))) ev ls.

  Fixpoint collect (ls : locals (option hist)) : option (list (marray T)) :=
    match ls with
    | [] => Some []
    | (_, None) :: _ => None
    | (_, Some h) :: ls => bind (collect ls) (fun l => Some (h_counts h :: l))
    end.

  (* BondHistogramCompute.h:35-69, 115-126, 129-139 together with RDF.cc:66-110 / PMFT.h:43-84 /
     BondOrder.cc:79-99: state of an accumulating compute.  [F] holds what the normalisation takes from the last
     frame (box, number of points, number of query points). *)
  Context {F : Type}.
  Record bhc := Bhc {
    bhc_axes : list axis;
    bhc_hist : hist;                     (* m_histogram *)
    bhc_locals : locals (option hist);   (* m_local_histograms *)
    bhc_frames : nat;                    (* m_frame_counter *)
    bhc_last : option F;                 (* m_box, m_n_points, m_n_query_points *)
    bhc_reduce : bool }.                 (* m_reduce *)

  Definition bhc_make (axes : list axis) : bhc := Bhc axes (hist_make axes) [] 0%nat None true.

  (* BondHistogramCompute.h:39-49  reset *)
  Definition bhc_reset (s : bhc) : bhc :=
    Bhc (bhc_axes s) (hist_make (h_axes (bhc_hist s)))
        (map (fun tl => (fst tl, option_map hist_reset (snd tl))) (bhc_locals s)) 0%nat (bhc_last s) true.

  (** One frame: what the bonds of each query point contribute and how TBB schedules it. *)
  Record frame := Frame { fr_n : nat; fr_samples : nat -> list (list R * T); fr_ev : list (nat * nat); fr_data : F }.

  (* BondHistogramCompute.h:115-126  accumulateGeneral *)
  Definition bhc_accumulate (s : bhc) (f : frame) : bhc :=
    Bhc (bhc_axes s) (bhc_hist s) (accumulate (bhc_axes s) (fr_samples f) (fr_ev f) (bhc_locals s))
        (S (bhc_frames s)) (Some (fr_data f)) true.

  (* density.py / pmft.py compute(..., reset=True): optional reset, then accumulate *)
  Definition bhc_compute (s : bhc) (reset : bool) (f : frame) : bhc :=
    bhc_accumulate (if reset then bhc_reset s else s) f.

  (* BondHistogramCompute.h:61-75  reduceAndReturn: histogram (re)reduced only when flagged; [ev] schedules the
     reduction loop.  The value observed is the bin count array (every derived array is a function of it, the
     frame counter and the last frame's data). *)
  Definition bhc_read (s : bhc) (ev : list (nat * nat)) : option bhc :=
    if bhc_reduce s then
      bind (collect (bhc_locals s)) (fun ls =>
      bind (tlh_reduce_into ls ev (h_counts (bhc_hist s))) (fun c =>
      Some (Bhc (bhc_axes s) (Hist (h_axes (bhc_hist s)) c) (bhc_locals s) (bhc_frames s) (bhc_last s) false)))
    else Some s.

  (** What a property read returns: (bin counts, frame counter, last frame's data). *)
  Definition observe (s : bhc) : list T * nat * option F :=
    (ma_data (h_counts (bhc_hist s)), bhc_frames s, bhc_last s).
End Hist.
Arguments hist : clear implicits. Arguments bhc : clear implicits. Arguments frame : clear implicits.
