(** C115: slices that change while they are iterated, and pipelines that write to the memory they read. *)
From Verif Require Import Base Iter IterGen IterSpec IterProofs IterGenProofs Stream StreamSpec StreamProofs Pipe PipeSpec PipeProofs SliceMem SliceMemProofs MemIter MemIterSpec MemIterProofs MemIterProofs2 MemIterProofs3 PropsPipe.
Open Scope go_scope.
Open Scope nat_scope.

(** ** A slice other code writes to between the calls *)
(** Whatever happens to the memory, there is exactly one list that has, at place k, the element that was at place k when the function was
    called for the (k+1)-th time; and any pipeline over OfSlice delivers what it delivers for that list: the length is the one the slice
    had when the iterator was made, no element is skipped or delivered twice, and no change to an element already passed has an effect. *)
Theorem C115_changing {T U} {ZT : Zero T} (env : nat -> mem T) (slc : slice) (p : pipe T U) : (forall c, valid (env c) slc) ->
  exists vs, seen_at env slc vs /\ (forall ws, seen_at env slc ws -> ws = vs) /\
    let it := apply_pipe p (source ZT (mem_slice_gen env slc) (0, 0)) in
    let out := meaning p (vs, Some EOI) in
    exists st e, emits (it_next it) (it_init it) (fst out) st /\ snd out = Some e /\ stuck (H := pipe_zero p ZT) (it_next it) st e.
Proof.
  intros V. destruct (seen_exists env slc V) as [vs SV]. exists vs. split; [exact SV|]. split; [intros ws SW; exact (seen_unique env slc ws vs V SW SV)|].
  cbn zeta. destruct (C106_values ZT p (mem_slice_gen env slc) (0, 0) (vs, Some EOI) (mem_slice_gives env slc vs V SV)) as (st & E & F).
  destruct (meaning_ends p (vs, Some EOI) EOI eq_refl) as [e He]. exists st, e. split; [exact E|]. split; [exact He|]. apply F. exact He.
Qed.
Print Assumptions C115_changing.
(** A memory that does not change: the contents. *)
Theorem C115_unchanged {T} (m : mem T) slc : valid m slc -> seen_at (fun _ => m) slc (contents m slc).
Proof. intros V. split; [apply contents_length; auto|auto]. Qed.

(** ** ReduceIntoSlice on the memory of its source *)
(** The destination begins in the array of the source no later than the source (the same slice, or one further left), or elsewhere; the
    pipeline has read at least as much as it has delivered.  Then the destination gets exactly what the pipeline delivers for the contents
    the source had before anything was written, its remaining elements keep their values, and no other cell changes.  With an error all of
    the destination is zeroed. *)
Theorem C115_in_place {T} {ZT : Zero T} (p : pipe T T) (from into : slice) (m : mem T) :
  valid m from -> valid m into -> apart_or_before into from -> no_faster p (contents m from) ->
  let (out, o) := meaning p (contents m from, Some EOI) in
  length out <= slen into ->
  exists e m', o = Some e /\ (exists N, forall fuel, N <= fuel -> into_slice p from into fuel m = Done (match e with EOI => None | _ => Some e end, m')) /\
    contents m' into = match e with EOI => out ++ skipn (length out) (contents m into) | _ => repeat zv (slen into) end /\
    frame (cells_of into) m m'.
Proof.
  intros VF VI AB NF. pose proof (into_done p from into m VF VI AB NF) as D. destruct (meaning_ends p (contents m from, Some EOI) EOI eq_refl) as [e He].
  destruct (meaning p (contents m from, Some EOI)) as [out o]. cbn [fst snd] in *. intros L. destruct (D e L He) as (m' & F & V & R & C). exists e, m'. auto.
Qed.
Print Assumptions C115_in_place.
(** A destination too short for the results: a run-time panic, never a write past its length. *)
Theorem C115_too_short {T} {ZT : Zero T} (p : pipe T T) (from into : slice) (m : mem T) :
  valid m from -> valid m into -> apart_or_before into from -> no_faster p (contents m from) ->
  slen into < length (fst (meaning p (contents m from, Some EOI))) ->
  exists N, forall fuel, N <= fuel -> into_slice p from into fuel m = Panicked.
Proof. apply into_panics. Qed.
(** Which pipelines qualify whatever the values are: those of Map, MapError, Filter, Distinct, Duplicate, Peek, Skip and Limit, and those
    that collect everything before they deliver anything. *)
Theorem C115_in_step {T U} (p : pipe T U) (l : list T) : in_step p -> no_faster p l.
Proof. apply in_step_no_faster. Qed.
Print Assumptions C115_in_step.

(** ** Appending to a slice in the memory of the source *)
(** Every value of the pipeline is written to OfSliceWriter(&into).  If append never writes to a cell of the source, any pipeline; if the
    source lies after the end of [into] (as with  into := from[:0]), a pipeline that is no faster: the variable ends up with the values
    it had followed by the values the pipeline delivers for the contents the source had before, whether or not append ever needs a new
    array, and only cells between length and capacity of [into] have changed. *)
Theorem C115_append {T} {ZT : Zero T} (ex : nat -> nat -> nat) (p : pipe T T) (from into : slice) (m : mem T) :
  valid m from -> valid m into -> spare_apart into from \/ ends_before into from /\ no_faster p (contents m from) ->
  exists e m' into', snd (meaning p (contents m from, Some EOI)) = Some e /\
    (exists N, forall fuel, N <= fuel -> append_all ex p from into fuel m = Done (e, (m', into'))) /\ valid m' into' /\
    contents m' into' = contents m into ++ fst (meaning p (contents m from, Some EOI)) /\ frame (spare_of into) m m'.
Proof.
  intros VF VI S. destruct (meaning_ends p (contents m from, Some EOI) EOI eq_refl) as [e He]. destruct (append_done ex p from into m VF VI S e He) as (m' & s' & R). exists e, m', s'. auto.
Qed.
Print Assumptions C115_append.
(** A slice is never in the way of appending to itself: the source is read to its length, append writes behind it. *)
Theorem C115_append_itself (from : slice) : spare_apart from from.
Proof. intros a i H1 H2. destruct from as [h|]; cbn in *; lia. Qed.

(** ** Findings *)
(** A destination that begins d > 0 elements after its source is not handled (copy of Go does handle it): with Map(f), place i gets f
    applied i/d + 1 times to element i mod d. *)
Theorem C115_shift_refuted {T} {ZT : Zero T} (f : T -> T) (a o n c n' c' d : nat) (m : mem T) :
  let from := Some (Hdr a o n c) in let into := Some (Hdr a (o + d) n' c') in
  let p := PThen (SMap ZT (fun (_ : unit) x => (f x, tt)) tt) PEnd in
  valid m from -> valid m into -> 0 < d -> n <= n' ->
  exists m', (exists N, forall fuel, N <= fuel -> into_slice p from into fuel m = Done (None, m')) /\
    forall i, i < n -> nth_error (contents m' into) i = option_map (times f (i / d + 1)) (nth_error (contents m from) (i mod d)).
Proof. intros from into p VF VI D L. exact (shift_done f a o n c n' c' d m VF VI D L). Qed.
Print Assumptions C115_shift_refuted.
Definition double_up : pipe nat nat := PThen (SMap (Zero_list _) (fun (_ : unit) x => ([x; x], tt)) tt) (PThen (SExpand 0) PEnd).
(** A pipeline that is faster than its source overwrites what it has not read: each element twice, into from[:0]. *)
Theorem C115_faster_refuted : let from := Some (Hdr 0 0 3 3) in let into := Some (Hdr 0 0 0 3) in
  exists m', append_all (ZT := 0) (fun c n => 2 * c - n) double_up from into 100 [[1; 2; 3]] = Done (EOI, m') /\ contents (fst m') (snd m') = [1; 1; 1; 1; 1; 1] /\
    fst (meaning double_up ([1; 2; 3], Some EOI)) = [1; 1; 2; 2; 3; 3].
Proof.
  cbn zeta. eexists. split; [vm_compute; reflexivity|]. split; [|reflexivity]. vm_compute. reflexivity.
Qed.

(** ** The hypotheses are met *)
Example C115_filter_in_place : let s := Some (Hdr 0 1 4 5) in
  in_step (PThen (SFilter 0 (fun (_ : unit) x => (Nat.even x, tt)) tt) PEnd) /\ valid [[9; 1; 2; 3; 4; 8]] s /\ apart_or_before s s /\
  exists m', into_slice (ZT := 0) (PThen (SFilter 0 (fun (_ : unit) x => (Nat.even x, tt)) tt) PEnd) s s 50 [[9; 1; 2; 3; 4; 8]] = Done (None, m') /\
    m' = [[9; 2; 4; 3; 4; 8]].
Proof. split; [left; cbn; auto|]. split; [cbn; lia|]. split; [cbn; lia|]. eexists. split; [vm_compute; reflexivity|reflexivity]. Qed.
(** ReduceToSlice, Map(reverse), ExpandSlices back into the source *)
Definition backwards : pipe nat nat := PThen SToSlice (PThen (SMap (Zero_list _) (fun (_ : unit) l => (rev l, tt)) tt) (PThen (SExpand 0) PEnd)).
Example C115_reverse_in_place : let s := Some (Hdr 0 0 4 4) in in_step backwards /\ valid [[1; 2; 3; 4]] s /\ apart_or_before s s /\
  exists m', into_slice (ZT := 0) backwards s s 50 [[1; 2; 3; 4]] = Done (None, m') /\ m' = [[4; 3; 2; 1]].
Proof. split; [right; cbn; right; unfold step_or_expand; cbn; tauto|]. split; [cbn; lia|]. split; [cbn; lia|]. eexists. split; [vm_compute; reflexivity|reflexivity]. Qed.
Example C115_append_keep : let from := Some (Hdr 0 0 4 4) in let into := Some (Hdr 0 0 0 4) in ends_before into from /\
  exists m', append_all (ZT := 0) (fun _ _ => 0) (PThen (SFilter 0 (fun (_ : unit) x => (Nat.even x, tt)) tt) PEnd) from into 50 [[1; 2; 3; 4]] = Done (EOI, m') /\
    contents (fst m') (snd m') = [2; 4].
Proof. split; [cbn; lia|]. eexists. split; vm_compute; reflexivity. Qed.
Example C115_shift : exists m', into_slice (ZT := 0) (PThen (SMap 0 (fun (_ : unit) x => (x * 10, tt)) tt) PEnd) (Some (Hdr 0 0 3 4)) (Some (Hdr 0 1 3 3)) 50 [[1; 2; 3; 4]] = Done (None, m') /\
  m' = [[1; 10; 100; 1000]].
Proof. eexists. split; [vm_compute; reflexivity|reflexivity]. Qed.
Example C115_env : seen_at (fun c => [[c; c; c]]) (Some (Hdr 0 0 3 3)) [0; 1; 2].
Proof. split; [reflexivity|]. intros [|[|[|k]]] v; cbn; auto. Qed.
