(** C108: Go numbers, and trees of them, as JSON. *)
From Coq Require Import ZArith List QArith Qpower Qabs Bool Lia String.
From Verif Require Import GoMap Readers ReaderSpec Writer JsonWrite JsonParse JsonSpec.
From Verif Require JsonWriteProofs JsonSearchProofs JsonDocProofs PropsJson.
From Verif Require Import Base Rest Conv ConvSpec Float FloatSpec ConvFloat ConvFloatSpec ConvAny ConvAnySpec PropsConvAny Literal LiteralSpec
  FloatText FloatTextSpec PropsFloatText JsonNum JsonNumSpec JsonNumProofs.
From Verif Require Decimal Json Union.
Import ListNotations.
Close Scope Q_scope.
Open Scope go_scope.
Open Scope Z_scope.

Section C108.
  Variable oor : ikind -> float -> Z.
  Notation number_to_value := (number_to_value oor). Notation to_value_number := (to_value_number oor).

  (** NumberToValue makes a number Value of every finite number; its text is a JSON number for it ... *)
  Theorem C108_number a : finite_number a ->
    exists text, number_to_value a = Done (value_of (JNum text), None) /\ to_value_number a = Done (value_of (JNum text), None) /\ number_text a text.
  Proof.
    intros F. destruct (number_ok oor a F) as (s & E & N). exists s. split; [exact E|]. split; [|exact N]. destruct a as [t v|]; [exact E|destruct F].
  Qed.
  (** ... so an integer is kept exactly, whatever its type: its text is the one decimal spelling of it ... *)
  Theorem C108_integer t g v z : under t g -> (exists k, g = TI k /\ v = VI z /\ in_type k z) \/ g = TBigInt /\ v = VBigInt z \/ g = TBigRat /\ v = VBigRat (inject_Z z) ->
    number_to_value (GVal t v) = Done (value_of (JNum (integer_to_string z)), None) /\ stands_for (integer_to_string z) (inject_Z z).
  Proof.
    intros U H. split; [|apply integer_stands].
    assert (N : g <> TBigRat -> t <> Known TBigRat) by (intros N ->; destruct U as [U|(p & n & U & _)]; congruence).
    assert (Gen : g <> TBigRat -> number_to_value (GVal t v) =
      obind (table oor float_parse float_to_string bigfloat_to_string rat_set_string g TString v (VS []))
        (fun r => match r with (Some e, _) => Done (zv, Some e) | (None, VS s) => Done (Json.number_of_str s, None) | (None, _) => Panicked end)).
    { intros K. rewrite <- (any_to_string_ok oor t g v U). specialize (N K). destruct t as [[]| |]; try reflexivity. congruence. }
    destruct H as [(k & -> & -> & T)|[(-> & ->)|(-> & ->)]].
    - rewrite Gen by discriminate. reflexivity.
    - rewrite Gen by discriminate. reflexivity.
    - destruct U as [->|(p & n & -> & B)]; [reflexivity|]. elim B. unfold big. tauto.
  Qed.
  (** ... and a float32 or float64 is told apart from every other one of its type by the text. *)
  Theorem C108_floats_distinct s x y a b : is_float (fmt_of s) x -> is_float (fmt_of s) y ->
    number_to_value (GVal (Known (TF s)) (VF x)) = Done (a, None) -> number_to_value (GVal (Known (TF s)) (VF y)) = Done (b, None) ->
    (a = b <-> same_float x y).
  Proof.
    intros X Y A B. rewrite <- (C98_same_text s x y X Y). destruct s; cbn in A, B; injection A as <-; injection B as <-; split; intros H; [|rewrite H; reflexivity| |rewrite H; reflexivity]; injection H; auto.
  Qed.

  (** What Json.toValue is given for such a value has the same result. *)
  Theorem C108_as_any a : (exists r, to_value_number a = Done r) ->
    Json.toValue (any_of_number oor a) = to_value_number a.
  Proof.
    intros (r & E). destruct a as [t v|b]; [|reflexivity]. cbn [JsonNum.to_value_number] in *. unfold any_of_number, as_any. rewrite E.
    destruct r as [x [e|]].
    - cbn [Json.toValue Json.numberToValue]. f_equal. f_equal. unfold JsonNum.number_to_value in E.
      assert (G : forall o : outcome (option err * gval), obind o (fun r => match r with (Some e, _) => Done (zv, Some e) | (None, VS s) => Done (Json.number_of_str s, None) | (None, _) => Panicked end) = Done (x, Some e) -> zv = x).
      { intros [[[e'|] w]| |]; cbn; try discriminate; [intros K; injection K; auto|destruct w; discriminate]. }
      destruct t as [[]| |]; try exact (G _ E). destruct v; try exact (G _ E). discriminate.
    - assert (G : exists s, x = Json.number_of_str s).
      { unfold JsonNum.number_to_value in E.
        assert (G : forall o : outcome (option err * gval), obind o (fun r => match r with (Some e, _) => Done (zv, Some e) | (None, VS s) => Done (Json.number_of_str s, None) | (None, _) => Panicked end) = Done (x, None) -> exists s, x = Json.number_of_str s).
        { intros [[[e'|] w]| |]; cbn; try discriminate. destruct w; try discriminate. intros K. injection K as <-. eauto. }
        destruct t as [[]| |]; try exact (G _ E). destruct v; try exact (G _ E). injection E as <-. eauto. }
      destruct G as (s & ->). reflexivity.
  Qed.
  (** An int as Json.v has it. *)
  Theorem C108_int_as_any k z : Json.toValue (Json.AInt z) = to_value_number (GVal (Known (TI k)) (VI z)).
  Proof. destruct k; reflexivity. Qed.

  (** Values of types that are neither numbers nor declared from one are refused ... *)
  Theorem C108_other v : (forall str, exists e, to_value_number (GVal (Other str) v) = Done (zv, Some e)) /\
    (forall p n g, big g -> exists e, to_value_number (GVal (Declared p n g) v) = Done (zv, Some e)).
  Proof. split; [intros; eexists; reflexivity|]. intros p n g [-> | [-> | ->]]; eexists; reflexivity. Qed.
  (** ... among them (finding) map[string]Value and []Value, which the signature of ToValue admits, and a Value among the elements of a
      []any. *)
  Theorem C108_values_refuted v : exists e1 e2 e3,
    to_value_number (GVal (Other "map[string]json.Value") v) = Done (zv, Some e1) /\ to_value_number (GVal (Other "[]json.Value") v) = Done (zv, Some e2) /\
    Json.toValue (Json.ASlice [any_of_number oor (GVal (Other "json.Value") v)]) = Done (zv, Some e3).
  Proof. repeat eexists. Qed.

  (** Finding: NaN and the infinities become number Values without an error, although their texts are no JSON numbers. *)
  Theorem C108_not_numbers_refuted s :
    number_to_value (GVal (Known (TF s)) (VF NaN)) = Done (value_of (JNum (str "NaN")), None) /\
    (forall neg, number_to_value (GVal (Known (TF s)) (VF (Inf neg))) = Done (value_of (JNum (str (if neg then "-Inf" else "+Inf"))), None)) /\
    (forall neg, number_to_value (GVal (Known TBigFloat) (VBigFloat (Inf neg))) = Done (value_of (JNum (str (if neg then "-Inf" else "+Inf"))), None)) /\
    forall t, In t ["NaN"; "+Inf"; "-Inf"]%string -> ~ json_number (str t).
  Proof.
    split; [destruct s; reflexivity|]. split; [intros []; destruct s; reflexivity|]. split; [intros []; reflexivity|].
    intros t I (sg & i & f & x & E & Sg & Ip & _). vm_compute in E.
    destruct I as [<-|[<-|[<-|[]]]]; vm_compute in E; destruct Sg; cbn in E; inversion Ip; subst; cbn in E; try discriminate; injection E; intros; subst; lia.
  Qed.
  (** Finding: a nil *big.Int given to NumberToValue is the number Value with the text <nil>, and a nil *big.Float or *big.Rat panics,
      where ToValue gives null. *)
  Theorem C108_nil_refuted :
    number_to_value (GNilBig TBigInt) = Done (value_of (JNum (str "<nil>")), None) /\ number_to_value (GNilBig TBigFloat) = Panicked /\
    number_to_value (GNilBig TBigRat) = Panicked /\ (forall g, to_value_number (GNilBig g) = Done (value_of JNull, None)).
  Proof. repeat split. Qed.
  (** Finding: numbers of the types *big.Float and *big.Rat are rounded to ten digits, so different ones get equal Values, and a small
      enough *big.Rat becomes zero. *)
  Theorem C108_rounded_refuted : exists x y : Q, Qred x = x /\ Qred y = y /\ ~ (x == y)%Q /\
    number_to_value (GVal (Known TBigRat) (VBigRat x)) = number_to_value (GVal (Known TBigRat) (VBigRat y)) /\
    number_to_value (GVal (Known TBigRat) (VBigRat (1 # Z.to_pos (2 ^ 200)))) = Done (value_of (JNum (str "0")), None) /\
    number_to_value (GVal (Known TBigFloat) (VBigFloat (Fin false (2 ^ 40 + 1) 0))) = number_to_value (GVal (Known TBigFloat) (VBigFloat (Fin false (2 ^ 40 + 2) 0))).
  Proof.
    exists (1 # 3)%Q, (3333333333 # 10000000000)%Q. split; [reflexivity|]. split; [vm_compute; reflexivity|]. split; [vm_compute; discriminate|].
    repeat split; vm_compute; reflexivity.
  Qed.

  (** ** Documents *)
  Lemma gotree_ind' (P : gotree -> Prop) : (forall m, (forall k g, In (k, g) m -> P g) -> P (GObj m)) -> (forall l, (forall g, In g l -> P g) -> P (GArr l)) ->
    (forall s, P (GStr s)) -> (forall b, P (GBool b)) -> P GNil -> (forall a, P (GNumber a)) -> forall g, P g.
  Proof.
    intros HO HA HS HB HN HZ. fix REC 1. intros [m|l|s|b| |a]; [| |apply HS|apply HB|apply HN|apply HZ].
    - apply HO. induction m as [|[k0 g0] m IH]; intros k g I; [destruct I|]. destruct I as [E|I]; [|exact (IH k g I)]. injection E as _ <-. apply REC.
    - apply HA. induction l as [|g0 l IH]; intros g I; [destruct I|]. destruct I as [<-|I]; [apply REC|exact (IH g I)].
  Qed.
  Lemma all_related {A B} (R : A -> B -> Prop) l : (forall a, In a l -> exists b, R a b) -> exists l', Forall2 R l l'.
  Proof.
    induction l as [|a l IH]; intros H; [exists []; constructor|]. destruct (H a (or_introl eq_refl)) as (b & Hb).
    destruct IH as (l' & F); [intros; apply H; right; auto|]. exists (b :: l'). constructor; auto.
  Qed.
  Lemma map_loop (m : list (list Z * gotree)) m' : Forall2 (fun a b => fst a = fst b /\ Json.toValue (go_any oor (snd a)) = Done (value_of (tree_of (snd b)), None)) m m' ->
    forall acc, NoDup (map fst acc ++ map (fun kv => utf8 (fst kv)) m) ->
      (fix go (m : list (Rest.str * Json.gany)) (mp : list (Rest.str * Json.value)) : outcome (ret Json.value) :=
         match m with
         | [] => Done (Json.mapToValue mp)
         | (k, v) :: m' =>
             let! r := Json.toValue v in
             match r with
             | (_, Some e) => Done (zv, Some e)
             | (jval, None) => go m' (mset str_eqb mp k jval)
             end
         end) (map (fun kv => (utf8 (fst kv), go_any oor (snd kv))) m) acc =
      Done (Json.mkV Json.TObject (Union.of4t (acc ++ map (fun kv => (fst kv, value_of (snd kv))) (map (fun kv => (utf8 (fst kv), tree_of (snd kv))) m'))), None).
  Proof.
    induction 1 as [|[k g] [k' r] m m' (E1 & E2) F IH]; intros acc ND; cbn [map]; [rewrite app_nil_r; reflexivity|]. cbn [fst snd] in *. subst k'.
    rewrite E2. cbn [obind]. rewrite JsonSearchProofs.mset_new.
    - rewrite IH; [rewrite <- app_assoc; reflexivity|]. rewrite map_app. cbn [map fst]. rewrite <- app_assoc. exact ND.
    - cbn [map] in ND. apply NoDup_remove_2 in ND. intros I. apply ND. apply in_app_iff. auto.
  Qed.
  Lemma slice_loop (l : list gotree) l' : Forall2 (fun a b => Json.toValue (go_any oor a) = Done (value_of (tree_of b), None)) l l' ->
    forall acc,
      (fix go (l : list Json.gany) (slc : list Json.value) : outcome (ret Json.value) :=
         match l with
         | [] => Done (Json.sliceToValue slc)
         | v :: l' =>
             let! r := Json.toValue v in
             match r with
             | (_, Some e) => Done (zv, Some e)
             | (jval, None) => go l' (slc ++ [jval])
             end
         end) (map (go_any oor) l) acc = Done (Json.mkV Json.TArray (Union.of4u (acc ++ map value_of (map tree_of l'))), None).
  Proof.
    induction 1 as [|g r l l' E F IH]; intros acc; cbn [map]; [rewrite app_nil_r; reflexivity|].
    rewrite E. cbn [obind]. rewrite IH, <- app_assoc. reflexivity.
  Qed.
  Lemma plain_scalar s : plain_string s -> Forall scalar s.
  Proof. apply Forall_impl. intros c H. apply H. Qed.
  Lemma NoDup_utf8 (m : list (list Z * gotree)) : NoDup (map fst m) -> (forall k g, In (k, g) m -> plain_string k) -> NoDup (map (fun kv => utf8 (fst kv)) m).
  Proof.
    induction m as [|[k g] m IH]; intros ND H; cbn [map fst] in *; constructor; inversion ND as [|? ? N1 N2]; subst.
    - intros I. apply in_map_iff in I as ([k' g'] & E & I). apply N1. cbn in E. apply JsonWriteProofs.utf8_inj in E.
      + subst. apply in_map_iff. exists (k, g'). auto.
      + apply plain_scalar. apply (H k' g'). right. exact I.
      + apply plain_scalar. apply (H k g). left. reflexivity.
    - apply IH; [assumption|]. intros k' g' I. apply (H k' g'). right. exact I.
  Qed.
  Lemma go_tree g : go_writable g -> exists r, same_tree g r /\ writable r /\ Json.toValue (go_any oor g) = Done (value_of (tree_of r), None).
  Proof.
    induction g as [m IH|l IH|s|b| |a] using gotree_ind'; intros W; inversion W as [m0 ND H|l0 H|s0 H|b0| |a0 F|b0 B]; subst.
    - destruct (all_related (fun (a b : list Z * _) => fst a = fst b /\ same_tree (snd a) (snd b) /\ writable (snd b) /\ Json.toValue (go_any oor (snd a)) = Done (value_of (tree_of (snd b)), None)) m) as (m' & F).
      { intros [k g] I. destruct (IH k g I (proj2 (H k g I))) as (r & H1 & H2 & H3). exists (k, r). auto. }
      exists (RObj m'). split; [|split].
      + constructor. clear -F. induction F as [|? ? ? ? (A & B & _)]; constructor; auto.
      + assert (Ek : map fst m' = map fst m) by (clear -F; induction F as [|? ? ? ? (A & _)]; cbn; congruence).
        constructor; [rewrite Ek; exact ND|]. intros k t I.
        assert (X : exists g, In (k, g) m /\ writable t).
        { clear -F I. induction F as [|[k1 g1] [k2 t2] m m' (A & _ & W & _) F IH]; [destruct I|]. cbn [fst snd] in *. destruct I as [E|I].
          - injection E as <- <-. subst. exists g1. split; [left; reflexivity|exact W].
          - destruct (IH I) as (g & I' & W'). exists g. split; [right; exact I'|exact W']. }
        destruct X as (g & I' & W'). split; [apply (H k g I')|exact W'].
      + cbn [go_any Json.toValue tree_of value_of]. rewrite (map_loop m m').
        * reflexivity.
        * clear -F. induction F as [|? ? ? ? (A & _ & _ & B)]; constructor; auto.
        * cbn [app map]. apply NoDup_utf8; [exact ND|]. intros k g I. apply (H k g I).
    - destruct (all_related (fun a b => same_tree a b /\ writable b /\ Json.toValue (go_any oor a) = Done (value_of (tree_of b), None)) l) as (l' & F).
      { intros g I. exact (IH g I (H g I)). }
      exists (RArr l'). split; [|split].
      + constructor. clear -F. induction F as [|? ? ? ? (A & _)]; constructor; auto.
      + constructor. intros t I. clear -F I. induction F as [|? ? ? ? (_ & A & _)]; [destruct I|]. destruct I as [<-|I]; auto.
      + cbn [go_any Json.toValue tree_of value_of]. rewrite (slice_loop l l'); [reflexivity|]. clear -F. induction F as [|? ? ? ? (_ & _ & B)]; constructor; auto.
    - exists (RStr s). split; [constructor|]. split; [constructor; exact H|reflexivity].
    - exists (RBool b). split; [constructor|]. split; [constructor|destruct b; reflexivity].
    - exists RNull. split; [constructor|]. split; [constructor|reflexivity].
    - destruct (number_ok oor a F) as (s & E & N). exists (RNum s). split; [constructor; exact N|]. split; [constructor; exact (number_text_json a s N)|].
      destruct a as [t v|]; [|destruct F]. cbn [go_any any_of_number]. unfold as_any. rewrite E. reflexivity.
    - exists RNull. split; [constructor|]. split; [constructor|reflexivity].
  Qed.
  (** A tree of Go maps, slices, strings, bools, nils and numbers of any numeric types becomes the Value of the same tree, with every number as a
      right text; Write writes that Value as JSON, and Parse reads the same Value from what was written. *)
  Theorem C108_document g : go_writable g -> (exists m, g = GObj m) \/ (exists l, g = GArr l) ->
    exists r bs, same_tree g r /\ Json.toValue (go_any oor g) = Done (value_of (tree_of r), None) /\
      write_json (write (rune_writer buffer_writer)) (value_of (tree_of r)) [] = Done (None, bs) /\
      settles (Parse string_reader bs) (value_of (tree_of r), None).
  Proof.
    intros W C. destruct (go_tree g W) as (r & S1 & W1 & E). assert (RC : rcontainer r) by (destruct C as [(m & ->)|(l & ->)]; inversion S1; exact Logic.I).
    destruct (PropsJson.C57_round_trip r W1 RC) as (bs & B1 & B2). exists r, bs. auto.
  Qed.
End C108.
Print Assumptions C108_number.
Print Assumptions C108_document.
Print Assumptions C108_floats_distinct.

Example C108_nonvacuous : let a := GVal (Declared "main" "Cents" (TI KInt32)) (VI (-250)) in let b := GVal (Known (TF S32)) (VF (to_fmt f32 false 1 10)) in
  let g := GObj [([97], GArr [GNumber a; GNumber b; GNumber (GNilBig TBigRat)])] in
  go_writable g /\ number_to_value (fun _ _ => 0) a = Done (value_of (JNum (str "-250")), None) /\ number_to_value (fun _ _ => 0) b = Done (value_of (JNum (str "0.1")), None) /\
  number_to_value (fun _ _ => 0) (GVal (Known TBigRat) (VBigRat (5 # 4))) = Done (value_of (JNum (str "1.25")), None).
Proof.
  intros a b g. split; [|repeat split; vm_compute; reflexivity]. apply gw_obj; [repeat constructor; intros []|].
  intros k t [E|[]]. injection E as <- <-. split; [repeat constructor; unfold scalar; lia|]. apply gw_arr. intros t [<-|[<-|[<-|[]]]].
  - apply gw_num. exists (TI KInt32). split; [right; exists "main"%string, "Cents"%string; split; [reflexivity|unfold big; intuition discriminate]|].
    split; [discriminate|]. split; [vm_compute; split; discriminate|]. exists (inject_Z (-250)). reflexivity.
  - apply gw_num. exists (TF S32). split; [left; reflexivity|]. split; [discriminate|]. split; [vm_compute; intuition discriminate|].
    exists (digits 2 13421773 (-27)). vm_compute. reflexivity.
  - apply gw_nil_big. right. right. reflexivity.
Qed.
