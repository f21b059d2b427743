(** C118: Must functions, and programs that use them under TryTo. *)
From Coq Require Import Qabs.
From Verif Require Import Iter IterSpec Readers Writer Union Rest Json JsonLex JsonParse JsonWrite JsonSpec.
From Verif Require Import Base GoInt FuncsFn FuncsFnSpec Decimal DecimalSpec DecDigits DecimalProofs Must MustSpec MustProofs.
From Verif Require Conv ConvFloat ConvFloatSpec FloatSpec PropsConv PropsJson PropsDecimal PropsFuncs.
Close Scope Q_scope.
Open Scope Z_scope.

(** * The generic functions: the values when the error is nil, a panic with that very error otherwise *)
Theorem C118_must {E T U V} (t : T) (u : U) (v : V) (e : E) :
  must (None : option E) = None /\ must (Some e) = Some (PErr e) /\
  must_value t (None : option E) = inl t /\ must_value t (Some e) = inr (PErr e) /\
  must_value2 t u (None : option E) = inl (t, u) /\ must_value2 t u (Some e) = inr (PErr e) /\
  must_value3 t u v (None : option E) = inl (t, u, v) /\ must_value3 t u v (Some e) = inr (PErr e).
Proof. repeat split. Qed.
Print Assumptions C118_must.

(** * A body of Must calls run by TryTo
    For every list of functions that return errors, every handler and all closers that do not panic: if every function
    returns nil, all of them and then the closers run, the handler does not, nothing escapes. *)
Theorem C118_try_success {W} (steps : list (W -> W * option err)) handler (closers : list (@thunk W (pv err))) w w' :
  all_ok steps w w' -> panics (rev closers) w' = [] ->
  try_to (must_body steps) handler closers w = (world_after (rev closers) w', None).
Proof. intros A P. apply try_returns; auto. apply body_ok; auto. Qed.
Print Assumptions C118_try_success.
(** If one returns an error, the ones before it have run and the ones after it do not; the closers run, and the handler
    gets that error. *)
Theorem C118_try_failure {W} (a b : list (W -> W * option err)) f handler (closers : list (@thunk W (pv err))) w w1 w2 e :
  all_ok a w w1 -> f w1 = (w2, Some e) -> panics (rev closers) w2 = [] ->
  try_to (must_body (a ++ f :: b)) handler closers w = handler (PErr e) (world_after (rev closers) w2).
Proof.
  intros A F P. apply try_panics; auto. rewrite (body_app a (f :: b) w w1 A). cbn [must_body]. rewrite F. reflexivity.
Qed.
Print Assumptions C118_try_failure.
(** There is no third case. *)
Theorem C118_try_cases {W} (steps : list (W -> W * option err)) w :
  (exists w', all_ok steps w w') \/ exists a f b w1 w2 e, steps = a ++ f :: b /\ all_ok a w w1 /\ f w1 = (w2, Some e).
Proof. exact (body_cases steps w). Qed.
Print Assumptions C118_try_cases.

(** Three calls that each append to a log; the second fails.  The third does not run, the closers run in reverse order. *)
Example C118_try_ex :
  let say n e := fun w : list Z => (w ++ [n], e) in
  let close n := fun w : list Z => (w ++ [n], None) in
  try_to (must_body [say 1 None; say 2 (Some (UserErr 7)); say 3 None]) (fun v w => (w ++ [match v with PErr (UserErr n) => 1000 + n | _ => 0 end], None))
    [close 10; close 11] [] = ([1; 2; 11; 10; 1007], None) /\
  try_to (must_body [say 1 None; say 3 None]) (fun v w => (w ++ [9], None)) [close 10; close 11] [] = ([1; 3; 11; 10], None).
Proof. split; reflexivity. Qed.

(** * Expressions of MustAdd, MustSub and MustMul *)
(** The evaluation always ends, with a decimal or a panic. *)
Theorem C118_expr_ends e : exists r, eval e = Done r.
Proof. exact (eval_ends e). Qed.
Print Assumptions C118_expr_ends.
(** If the expression needs at most 17 decimals and no subexpression needs more than 18 digits at that number of decimals,
    the result is exact: no panic, no rounding. *)
Theorem C118_expr_exact n e : (decimals e <= n <= 17)%nat -> lits_ok valid e ->
  (forall x, In x (parts e) -> fits n (exact x)) ->
  exists r, eval e = Done (inl r) /\ (DecimalSpec.value r == exact e)%Q /\ valid r /\ (dscale r <= decimals e)%nat.
Proof. intros [D N] L F. destruct (eval_exact n N e D L F) as (r & A & B & C & E). exists r. auto. Qed.
Print Assumptions C118_expr_exact.
(** So TryTo stores it and the handler does not run. *)
Theorem C118_expr_try {W} n e (put : decimal -> W -> W) handler closers w : (decimals e <= n <= 17)%nat -> lits_ok valid e ->
  (forall x, In x (parts e) -> fits n (exact x)) -> (forall r, panics (rev closers) (put r w) = []) ->
  exists r, (DecimalSpec.value r == exact e)%Q /\
            try_to (assign e put) handler closers w = (world_after (rev closers) (put r w), None).
Proof.
  intros D L F P. destruct (C118_expr_exact n e D L F) as (r & A & B & _). exists r. split; auto.
  apply try_returns; auto. unfold assign. rewrite A. reflexivity.
Qed.
Print Assumptions C118_expr_try.
(** If the evaluation panics - an overflow, an underflow, a run time error - nothing is stored, the closers run, and the
    handler gets the panic value.  Either this or the store happens, for every expression. *)
Theorem C118_expr_try_panics {W} e (put : decimal -> W -> W) handler closers w p : eval e = Done (inr p) -> panics (rev closers) w = [] ->
  try_to (assign e put) handler closers w = handler p (world_after (rev closers) w).
Proof. intros E P. apply try_panics; auto. unfold assign. rewrite E. reflexivity. Qed.
Print Assumptions C118_expr_try_panics.
Theorem C118_expr_try_stores {W} e (put : decimal -> W -> W) handler closers w r : eval e = Done (inl r) -> panics (rev closers) (put r w) = [] ->
  try_to (assign e put) handler closers w = (world_after (rev closers) (put r w), None).
Proof. intros E P. apply try_returns; auto. unfold assign. rewrite E. reflexivity. Qed.
Print Assumptions C118_expr_try_stores.
(** Both cases: x holds 5; 999999999999999999 + 1 leaves it at 5 and the handler gets the overflow error; 2 + 1 stores 3. *)
Example C118_expr_try_ex :
  let lit z := DLit (mkD z 0 false) in
  let over := DAdd (lit 999999999999999999) (lit 1) in
  let store (d : decimal) (w : Z * list Z) := (dval d, snd w) in
  let note (v : pv err) (w : Z * list Z) := ((fst w, snd w ++ [match v with PErr ErrDecOverflow => 1 | _ => 2 end]), None) in
  eval over = Done (inr (PErr ErrDecOverflow)) /\
  try_to (assign over store) note [fun w => ((fst w, snd w ++ [7]), None)] (5, []) = ((5, [7; 1]), None) /\
  try_to (assign (DAdd (lit 2) (lit 1)) store) note [fun w => ((fst w, snd w ++ [7]), None)] (5, []) = ((3, [7]), None).
Proof. split; [vm_compute; reflexivity|]. split; vm_compute; reflexivity. Qed.

(** (1.25 + 2.5) * 4 - 0.001 = 14.999, at 3 decimals *)
Definition ex_expr : dexpr :=
  DSub (DMul (DAdd (DLit (mkD 125 2 false)) (DLit (mkD 25 1 false))) (DLit (mkD 4 0 false))) (DLit (mkD 1 3 false)).
Example C118_expr_nonvacuous : eval ex_expr = Done (inl (mkD 14999 3 false)) /\ (decimals ex_expr <= 3 <= 17)%nat /\
  lits_ok valid ex_expr /\ (forall x, In x (parts ex_expr) -> fits 3 (exact x)).
Proof.
  split; [vm_compute; reflexivity|]. split; [cbn; lia|]. split.
  - intros x d H E. cbn in H. repeat destruct H as [<-|H]; try discriminate E; try tauto; injection E as <-; split; vm_compute; try discriminate; repeat constructor.
  - intros x H. cbn in H. repeat destruct H as [<-|H]; try tauto; vm_compute; discriminate.
Qed.
(** The bound of 17 decimals cannot be 18: 0 + 0.000000000000000001 panics with a run time error ... *)
Theorem C118_expr_18_refuted : let e := DAdd (DLit (mkD 0 0 false)) (DLit (mkD 1 18 false)) in
  decimals e = 18%nat /\ lits_ok valid e /\ (forall x, In x (parts e) -> fits 18 (exact x)) /\ eval e = Done (inr PRuntime).
Proof.
  cbv zeta. split; [reflexivity|]. split; [|split].
  - intros x d H E. cbn in H. repeat destruct H as [<-|H]; try discriminate E; try tauto; injection E as <-; split; vm_compute; try discriminate; repeat constructor.
  - intros x H. cbn in H. repeat destruct H as [<-|H]; try tauto; vm_compute; discriminate.
  - vm_compute. reflexivity.
Qed.
Print Assumptions C118_expr_18_refuted.
(** ... and an operand of too many digits is rounded without a panic: with b = 999999999999999990, 0.4 + b + 0.4 - b
    gives 0, not 0.8. *)
Theorem C118_expr_rounds_refuted :
  let b := DLit (mkD 999999999999999990 0 false) in let small := DLit (mkD 4 1 false) in
  let e := DSub (DAdd (DAdd small b) small) b in
  (exact e == 4 # 5)%Q /\ eval e = Done (inl (mkD 0 0 false)).
Proof. vm_compute. split; reflexivity. Qed.
Print Assumptions C118_expr_rounds_refuted.

(** * Amounts: decimals of one fixed scale n <= 17, made with normalized = false
    Sums and differences of amounts, of any depth: the result is the exact amount, again one of that scale, or a panic with
    the overflow or underflow error of the first operation (from left to right, inside out) whose result has more than 18
    digits.  There is no rounding. *)
Theorem C118_money n e : (n <= 17)%nat -> no_product e -> lits_ok (amount n) e ->
  match units n e with
  | inl z => exists r, eval e = Done (inl r) /\ amount n r /\ (DecimalSpec.value r == Qmake z (Z.to_pos (p10 n)))%Q
  | inr er => eval e = Done (inr (PErr er))
  end.
Proof.
  intros N P L. pose proof (eval_money n N e P L) as H. destruct (units n e) as [z|er]; auto.
  destruct H as (r & A & B & C). exists r. split; auto. split; auto. rewrite <- C. apply U_value. apply (amount_U n r N B).
Qed.
Print Assumptions C118_money.
(** MustDecimal(v, n, false) makes an amount. *)
Theorem C118_money_lit n v : (n <= 17)%nat -> Z.abs v <= p10 18 - 1 ->
  exists d, must_decimal v n false = Done (inl d) /\ amount n d /\ (DecimalSpec.value d == Qmake v (Z.to_pos (p10 n)))%Q.
Proof.
  intros N B. destruct (amount_result n v N B n (or_introl eq_refl)) as [A Uv].
  exists (apply_norm (mkD v n true)). split; [|split; [exact A|rewrite <- Uv at 2; apply U_value; apply (amount_U n _ N A)]].
  unfold must_decimal, must_call, new_decimal, maxValue, minValue. rewrite p10_18 in B.
  destruct (Z.ltb_spec 18 (Z.of_nat n)); [lia|]. destruct (Z.ltb_spec 999999999999999999 v); [lia|].
  destruct (Z.ltb_spec v (-999999999999999999)); [lia|]. reflexivity.
Qed.
Print Assumptions C118_money_lit.
(** 10.00 - 2.50 - 7.50 + 0.05 = 0.05; and a sum beyond 18 digits panics with the overflow error, a later one is not
    reached. *)
Example C118_money_nonvacuous :
  let amt z := DLit (mkD z 2 true) in
  let e := DAdd (DSub (DSub (amt 1000) (amt 250)) (amt 750)) (amt 5) in
  let over := DAdd (DSub (DAdd (amt 999999999999999999) (amt 1)) (amt 5)) (DSub (amt (-999999999999999999)) (amt 7)) in
  no_product e /\ lits_ok (amount 2) e /\ units 2 e = inl 5 /\ eval e = Done (inl (mkD 5 2 true)) /\
  no_product over /\ lits_ok (amount 2) over /\ units 2 over = inr ErrDecOverflow /\ eval over = Done (inr (PErr ErrDecOverflow)).
Proof.
  cbv zeta. split; [cbn; tauto|]. split.
  { intros x d H E. cbn in H. repeat destruct H as [<-|H]; try discriminate E; try tauto; injection E as <-;
      (split; [split; vm_compute; try discriminate; repeat constructor|auto]). }
  split; [reflexivity|]. split; [vm_compute; reflexivity|]. split; [cbn; tauto|]. split.
  { intros x d H E. cbn in H. repeat destruct H as [<-|H]; try discriminate E; try tauto; injection E as <-;
      (split; [split; vm_compute; try discriminate; repeat constructor|auto]). }
  split; [reflexivity|vm_compute; reflexivity].
Qed.

(** * MustDecimal, MustStringToDecimal: what they panic on *)
Theorem C118_must_decimal v s n : int64 v ->
  ((s <= 18)%nat /\ Z.abs v <= p10 18 - 1 -> exists d, must_decimal v s n = Done (inl d) /\ (DecimalSpec.value d == Qmake v (Z.to_pos (p10 s)))%Q) /\
  (~ ((s <= 18)%nat /\ Z.abs v <= p10 18 - 1) -> exists e, must_decimal v s n = Done (inr (PErr e))).
Proof.
  intros Hv. destruct (PropsDecimal.C34_of_decimal v s n Hv) as [A B]. unfold must_decimal, must_call. split; intros H.
  - destruct (A H) as (d & E & Q & _). rewrite E. exists d. auto.
  - destruct (B H) as (e & E). rewrite E. exists e. reflexivity.
Qed.
Print Assumptions C118_must_decimal.
Theorem C118_must_string d : valid d -> (dscale d <= 17)%nat -> must_string_to_decimal (to_string d) = Done (inl (mkD (dval d) (dscale d) false)).
Proof.
  intros V S. unfold must_string_to_decimal, must_call. rewrite (proj1 (PropsDecimal.C35_round_trip d V) S). reflexivity.
Qed.
Print Assumptions C118_must_string.

(** * MustTo: for the numeric types (except the pairs that C80 lists) it returns, with the number in the output variable,
    when the target type has the number, and panics otherwise.  It never panics with a run time error. *)
Theorem C118_must_to oor pl ff fb pr s t v o q :
  ConvFloatSpec.oor_representable oor -> ConvFloatSpec.well_typed s v -> ConvFloatSpec.out_typed t o -> ConvFloatSpec.numeric s -> ConvFloatSpec.numeric t ->
  ~ ConvFloatSpec.lossy s t -> ConvFloatSpec.number v q ->
  ((exists w, ConvFloatSpec.well_typed t w /\ ConvFloatSpec.number w q) ->
     exists w, must_to oor pl ff fb pr s t v o = Done (w, None) /\ ConvFloatSpec.well_typed t w /\ ConvFloatSpec.same_number v w) /\
  ((forall w, ConvFloatSpec.well_typed t w -> ~ ConvFloatSpec.same_number v w) ->
     exists w e, must_to oor pl ff fb pr s t v o = Done (w, Some (PErr e))).
Proof.
  intros R V O NS NT L Q. split.
  - intros (w & Hw & Nw). destruct (PropsConv.C80_to_complete oor pl ff fb pr s t v o w q V O NS NT L Q Hw Nw) as [r E].
    exists r. unfold must_to. rewrite E. split; [reflexivity|]. exact (PropsConv.C80_to_preserves oor pl ff fb pr s t v o r R V O NS NT L E).
  - intros H. destruct (PropsConv.C80_to_total oor pl ff fb pr s t v o V O) as ([e|] & r & E).
    + exists r, e. unfold must_to. rewrite E. reflexivity.
    + exfalso. destruct (PropsConv.C80_to_preserves oor pl ff fb pr s t v o r R V O NS NT L E) as [A B]. exact (H r A B).
Qed.
Print Assumptions C118_must_to.

Example C118_must_to_ex oor pl ff fb pr :
  must_to oor pl ff fb pr (ConvFloat.TI Conv.KUint8) (ConvFloat.TI Conv.KInt8) (ConvFloat.VI 100) (ConvFloat.VI 7) = Done (ConvFloat.VI 100, None) /\
  must_to oor pl ff fb pr (ConvFloat.TI Conv.KUint8) (ConvFloat.TI Conv.KInt8) (ConvFloat.VI 200) (ConvFloat.VI 7) = Done (ConvFloat.VI 7, Some (PErr Conv.conv_err)).
Proof. split; vm_compute; reflexivity. Qed.

(** * JSON: MustParse of what MustWrite wrote is the value that was written. *)
Theorem C118_json t : writable t -> rcontainer t ->
  exists bs, must_write (write (rune_writer buffer_writer)) (value_of (tree_of t)) [] = Done (bs, None) /\
    settles (must_parse string_reader bs) (inl (value_of (tree_of t))).
Proof.
  intros H C. destruct (PropsJson.C57_round_trip t H C) as (bs & A & n & B). exists bs. unfold must_write, must_parse. rewrite A.
  split; [reflexivity|]. exists n. intros m Hm. rewrite (B m Hm). reflexivity.
Qed.
Print Assumptions C118_json.
