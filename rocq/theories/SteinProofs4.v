(** Proofs about the Steinhardt model: whole calls and the angles between bonds. *)
From Verif Require Import RBase HistSpec HistProofs ParProofs MatchEnvProofs LocalDescProps HexProps AccumProofs SteinProofs SteinProofs2 SteinProofs3.
From Coq Require Import Permutation Reals ZArith List Lra Lia Bool Classical.
From Verif Require Import HarmProofs SteinSpec.
Import ListNotations.
Local Open Scope R_scope.
Add Ring cplx_ring_inst : cplx_ring.

Lemma row_choice {l row v q} {ok : Prop} : (ok -> row = rowval l q) -> (~ ok -> row = norow l) -> v = st_norm l row -> cell l row v q ok.
Proof.
  intros A B ->. split; intros H.
  - rewrite A by exact H. split; [reflexivity|]. apply st_norm_rowval.
  - rewrite B by exact H. split; [reflexivity|]. apply st_norm_norow.
Qed.
Lemma rows_exist fsph c l f : fsph_ok fsph l -> st_ok l f -> exists val, forall i, (i < length (si_pts f))%nat ->
  st_row fsph l (sc_weighted c) (si_box f) (si_pts f) (si_bonds f i) i = Some (val i) /\
  (has_mean (sc_weighted c) f i -> val i = rowval l (q_point l (sc_weighted c) f i)) /\ (~ has_mean (sc_weighted c) f i -> val i = norow l).
Proof.
  intros F (HB & LN & _). exists (fun i => if Req_EM_T (wtot (sc_weighted c) (si_bonds f i)) 0 then norow l else rowval l (q_point l (sc_weighted c) f i)). intros i Hi.
  destruct (st_row_spec fsph l (sc_weighted c) (si_box f) (si_pts f) (si_bonds f i) i F Hi (fun nb Hnb => HB i nb Hi Hnb) (fun nb Hnb => LN i nb Hi Hnb)) as [R1 R2].
  unfold has_mean. destruct (Req_EM_T _ 0) as [E|E].
  - split; [apply R2; exact E|]. split; [intros X; contradiction|reflexivity].
  - split; [apply R1; exact E|]. split; [reflexivity|intros X; contradiction].
Qed.

(** * Whole calls *)
Definition result (table : nat -> option (list R)) (c : stconf) (l : nat) (f : st_in) (s : stl) : Prop :=
  let np := length (si_pts f) in let w := sc_weighted c in
  (length (sl_qlm s) = np /\ length (sl_ql s) = np /\ forall i, (i < np)%nat -> cell l (nth i (sl_qlm s) []) (nth i (sl_ql s) None) (q_point l w f i) (has_mean w f i)) /\
  (sc_average c = true -> length (sl_qlm_ave s) = np /\ length (sl_ql_ave s) = np /\ forall i, (i < np)%nat -> cell l (nth i (sl_qlm_ave s) []) (nth i (sl_ql_ave s) None) (q_shell l w f i) (shell_ok w f i)) /\
  (((forall i, (i < np)%nat -> ok_used c f i) -> sl_sys s = rowval l (q_all (q_used c l f) np)) /\ (~ (forall i, (i < np)%nat -> ok_used c f i) -> sl_sys s = norow l)) /\
  (sc_wl c = false -> sl_order s = st_norm l (sl_sys s)) /\
  (sc_wl c = true -> exists t, table l = Some t /\ length (sl_w s) = np /\
     (forall i, (i < np)%nat -> st_wl l t (sc_normalize c) (nth i (if sc_average c then sl_qlm_ave s else sl_qlm s) []) (nth i (if sc_average c then sl_ql_ave s else sl_ql s) None) = Some (nth i (sl_w s) None)) /\
     st_wl l t (sc_normalize c) (sl_sys s) (st_norm l (sl_sys s)) = Some (sl_order s)).
Lemma used_cell c l f i row v : (i < length (si_pts f))%nat -> cell l row v (q_used c l f i) (ok_used c f i) -> forall w t nz, table_ok l w t ->
  exists x, st_wl l t nz row v = Some x /\ (ok_used c f i -> x = w_value nz l w (q_used c l f i) (m_pairs (Z.of_nat l))) /\ (~ ok_used c f i -> x = None).
Proof.
  intros Hi [A B] w t nz T. destruct (classic (ok_used c f i)) as [O|O].
  - destruct (A O) as [-> ->]. eexists. split; [apply (st_wl_value l w t nz); exact T|]. split; [reflexivity|intros X; contradiction].
  - destruct (B O) as [-> ->]. eexists. split; [apply (st_wl_none l w t nz); exact T|]. split; [intros X; contradiction|reflexivity].
Qed.
Lemma call_spec fsph table c l s f : fsph_ok fsph l -> all_shaped (2 * l + 1) (sl_locals s) -> st_ok l f ->
  (sc_wl c = true /\ table l = None /\ st_call fsph table c l s f = STRaised) \/
  (sc_wl c = true /\ exists t, table l = Some t /\ ~ exists w, table_ok l w t) \/
  exists s', st_call fsph table c l s f = STDone s' /\ all_shaped (2 * l + 1) (sl_locals s') /\ result table c l f s'.
Proof.
  intros F SH OK. destruct (rows_exist fsph c l f F OK) as (val & V). destruct OK as (HB & LN & E1 & E2 & E3 & E4).
  unfold st_call, st_compute. cbv zeta. set (np := length (si_pts f)) in *. set (W := sc_weighted c) in *.
  set (row := fun i => st_row fsph l W (si_box f) (si_pts f) (si_bonds f i) i) in *.
  assert (VR : forall i, (i < np)%nat -> row i = Some (val i)) by (intros i Hi; apply V; exact Hi).
  destruct (fill_spec row (fun r => r) val np (si_ev1 f) (repeat (repeat (Some c0) (2 * l + 1)) np) [] VR E1 (repeat_length _ _)) as (qlm & -> & Lq & Nq).
  destruct (fill_spec row (st_norm l) val np (si_ev1 f) (repeat (Some 0) np) None VR E1 (repeat_length _ _)) as (ql & -> & Ll & Nl).
  assert (BASE : forall i, (i < np)%nat -> cell l (nth i qlm []) (nth i ql None) (q_point l W f i) (has_mean W f i)).
  { intros i Hi. destruct (V i Hi) as (_ & A & B). rewrite Nq, Nl by exact Hi. apply row_choice; auto. }
  set (ave := fun i => st_ave_row l qlm (si_bonds f i) i).
  assert (AV : exists av, forall i, (i < np)%nat -> ave i = Some (av i) /\ (shell_ok W f i -> av i = rowval l (q_shell l W f i)) /\ (~ shell_ok W f i -> av i = norow l)).
  { exists (fun i => match ave i with Some r => r | None => [] end). intros i Hi.
    destruct (ave_row_cell l W f qlm i HB Hi Lq) as (r & E & A & B); [intros j Hj; destruct (V j Hj) as (_ & A & B); rewrite Nq by exact Hj; auto|]. unfold ave. rewrite E. auto. }
  destruct AV as (av & AV). assert (AVR : forall i, (i < np)%nat -> ave i = Some (av i)) by (intros i Hi; apply AV; exact Hi).
  destruct (fill_spec ave (fun r => r) av np (si_ev2 f) (repeat (repeat (Some c0) (2 * l + 1)) np) [] AVR E2 (repeat_length _ _)) as (qa & -> & Lqa & Nqa).
  destruct (fill_spec ave (st_norm l) av np (si_ev2 f) (repeat (Some 0) np) None AVR E2 (repeat_length _ _)) as (qla & -> & Lla & Nla).
  assert (AVE : forall i, (i < np)%nat -> cell l (nth i qa []) (nth i qla None) (q_shell l W f i) (shell_ok W f i)).
  { intros i Hi. destruct (AV i Hi) as (_ & A & B). rewrite Nqa, Nla by exact Hi. apply row_choice; auto. }
  set (qlm_ave := if sc_average c then Some qa else Some (sl_qlm_ave s)). set (ql_ave := if sc_average c then Some qla else Some (sl_ql_ave s)).
  set (ls := if sc_average c then _ else _).
  assert (SYS : all_shaped (2 * l + 1) ls /\ exists sys, ts_reduce_into (Some c0) oadd (map snd ls) (si_ev3 f) (st_zero l) = Some sys /\
    ((forall i, (i < np)%nat -> ok_used c f i) -> ma_data sys = rowval l (q_all (q_used c l f) np)) /\ (~ (forall i, (i < np)%nat -> ok_used c f i) -> ma_data sys = norow l)).
  { unfold ls, ok_used. assert (U : q_used c l f = if sc_average c then q_shell l W f else q_point l W f) by (unfold q_used; destruct (sc_average c); reflexivity). rewrite U. destruct (sc_average c).
    - exact (sys_spec l np ave av (q_shell l W f) (shell_ok W f) (si_ev2 f) (si_ev3 f) (sl_locals s) AV SH E2 E3).
    - exact (sys_spec l np row val (q_point l W f) (has_mean W f) (si_ev1 f) (si_ev3 f) (sl_locals s) V SH E1 E3). }
  destruct SYS as (SH1 & sys & ES & SY). 
  destruct (sc_wl c) eqn:WL.
  - destruct (table l) as [t|] eqn:T.
    + right. destruct (classic (exists w, table_ok l w t)) as [(w & TO)|NT]; [|left; split; [reflexivity|]; exists t; auto]. right.
      set (src := if sc_average c then qa else qlm). set (nrm := if sc_average c then qla else ql).
      assert (CELL : forall i, (i < np)%nat -> cell l (nth i src []) (nth i nrm None) (q_used c l f i) (ok_used c f i)).
      { intros i Hi. unfold src, nrm, q_used, ok_used. destruct (sc_average c); [apply AVE|apply BASE]; exact Hi. }
      set (wf := fun i => st_wl l t (sc_normalize c) (nth i src []) (nth i nrm None)).
      assert (WV : forall i, (i < np)%nat -> wf i = Some (match wf i with Some x => x | None => None end)).
      { intros i Hi. destruct (used_cell c l f i _ _ Hi (CELL i Hi) w t (sc_normalize c) TO) as (x & E & _). unfold wf. rewrite E. reflexivity. }
      destruct (fill_spec wf (fun x => x) _ np (si_ev4 f) (repeat (Some 0) np) None WV E4 (repeat_length _ _)) as (wl & EW & Lw & Nw).
      assert (OV : exists o, st_wl l t (sc_normalize c) (ma_data sys) (st_norm l (ma_data sys)) = Some o).
      { destruct SY as [S1 S2]. destruct (classic (forall i, (i < np)%nat -> ok_used c f i)) as [O|O].
        - rewrite S1 by exact O. rewrite st_norm_rowval. eexists. apply (st_wl_value l w t); exact TO.
        - rewrite S2 by exact O. rewrite st_norm_norow. eexists. apply (st_wl_none l w t); exact TO. }
      destruct OV as (o & EO).
      exists (STL ls qlm ql (if sc_average c then qa else sl_qlm_ave s) (if sc_average c then qla else sl_ql_ave s) wl (ma_data sys) o).
      split; [|split; [exact SH1|]].
      * replace qlm_ave with (Some (if sc_average c then qa else sl_qlm_ave s)) by (unfold qlm_ave; destruct (sc_average c); reflexivity).
        replace ql_ave with (Some (if sc_average c then qla else sl_ql_ave s)) by (unfold ql_ave; destruct (sc_average c); reflexivity). rewrite ES.
        replace (if sc_average c then if sc_average c then qa else sl_qlm_ave s else qlm) with src by (unfold src; destruct (sc_average c); reflexivity).
        replace (if sc_average c then if sc_average c then qla else sl_ql_ave s else ql) with nrm by (unfold nrm; destruct (sc_average c); reflexivity).
        fold wf. rewrite EW, EO. reflexivity.
      * unfold result. cbv zeta. cbn [sl_qlm sl_ql sl_qlm_ave sl_ql_ave sl_sys sl_order sl_w]. fold np W. split; [auto|]. split; [intros ->; auto|]. split; [exact SY|]. split; [intros X; rewrite WL in X; discriminate|]. intros _. exists t. split; [exact T|]. split; [exact Lw|]. split; [|exact EO].
        intros i Hi. rewrite Nw by exact Hi. rewrite <- WV by exact Hi. unfold wf, src, nrm. destruct (sc_average c); reflexivity.
    + left. split; [reflexivity|]. split; [reflexivity|]. replace qlm_ave with (Some (if sc_average c then qa else sl_qlm_ave s)) by (unfold qlm_ave; destruct (sc_average c); reflexivity).
      replace ql_ave with (Some (if sc_average c then qla else sl_ql_ave s)) by (unfold ql_ave; destruct (sc_average c); reflexivity). rewrite ES. reflexivity.
  - right. right. exists (STL ls qlm ql (if sc_average c then qa else sl_qlm_ave s) (if sc_average c then qla else sl_ql_ave s) (sl_w s) (ma_data sys) (st_norm l (ma_data sys))).
    split; [|split; [exact SH1|]].
    + replace qlm_ave with (Some (if sc_average c then qa else sl_qlm_ave s)) by (unfold qlm_ave; destruct (sc_average c); reflexivity).
      replace ql_ave with (Some (if sc_average c then qla else sl_ql_ave s)) by (unfold ql_ave; destruct (sc_average c); reflexivity). rewrite ES. reflexivity.
    + unfold result. cbv zeta. cbn [sl_qlm sl_ql sl_qlm_ave sl_ql_ave sl_sys sl_order sl_w]. fold np W. split; [auto|]. split; [intros ->; auto|]. split; [exact SY|]. split; [reflexivity|]. intros X. rewrite WL in X. discriminate.
Qed.
Lemma run_shaped fsph table c l h : fsph_ok fsph l -> Forall (st_ok l) h -> (sc_wl c = true -> forall t, table l = Some t -> exists w, table_ok l w t) -> forall s s', all_shaped (2 * l + 1) (sl_locals s) ->
  st_run fsph table c l s h = STDone s' -> all_shaped (2 * l + 1) (sl_locals s').
Proof.
  intros F OK TB. induction h as [|f h IH]; intros s s' SH R; cbn [st_run] in R; [injection R as <-; exact SH|]. apply Forall_cons_iff in OK as [Of Oh].
  destruct (call_spec fsph table c l s f F SH Of) as [(_ & _ & E)|[(W & t & T & N)|(s1 & E & SH1 & _)]].
  - rewrite E in R. discriminate.
  - exfalso. apply N. apply (TB W t T).
  - rewrite E in R. exact (IH Oh s1 s' SH1 R).
Qed.
