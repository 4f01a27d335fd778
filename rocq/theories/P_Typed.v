(** Properties C53 (reading and writing typed configuration data) and C54 (calling classes and functions named in
    configuration files). *)
From Coq Require Import String Ascii QArith.
From Verif Require Import Base Typed TypedSpec TypedProofs TypedRound TypedCallSpec TypedCallProofs.
Local Close Scope Q_scope.
Local Close Scope Z_scope.
Local Open Scope string_scope.
Local Open Scope list_scope.
Local Open Scope nat_scope.

(** ** C53 *)
(** what was written is read back *)
Theorem C53_read_back accepts strict inst t v : storable t -> inhab accepts is_json v t ->
  exists j, to_json_object v = COk j /\ raw_to_typed accepts strict false inst (Some j) t = COk v.
Proof. intros. apply round_trip; assumption. Qed.
Print Assumptions C53_read_back.

(** in particular the files .info.yaml and split.yaml *)
Theorem C53_info_read_back strict inst counts : exists j,
  to_json_object (info_value counts) = COk j /\ raw_to_typed (fun _ _ => true) strict false inst (Some j) info_type = COk (info_value counts).
Proof.
  apply C53_read_back; [cbn; repeat split; repeat constructor; cbn; intuition congruence|]. cbn. eexists. split; [reflexivity|]. repeat split.
  eexists. split; [reflexivity|]. apply Forall_forall. intros x H. apply in_map_iff in H as ([k c] & <- & _). cbn. left. eauto.
Qed.
Print Assumptions C53_info_read_back.

Theorem C53_splits_read_back strict inst parts exclude : exists j,
  to_json_object (splits_value parts exclude) = COk j /\ raw_to_typed (fun _ _ => true) strict false inst (Some j) splits_type = COk (splits_value parts exclude).
Proof.
  apply C53_read_back; [cbn; repeat split; repeat constructor; cbn; intuition congruence|]. cbn. eexists. split; [reflexivity|]. repeat split.
  - eexists. split; [reflexivity|]. apply Forall_forall. intros x H. apply in_map_iff in H as ([k c] & <- & _). cbn. eexists. split; [reflexivity|]. apply Forall_forall. intros s Hs. apply in_map_iff in Hs as (s' & <- & _). eauto.
  - eexists. split; [reflexivity|]. apply Forall_forall. intros s Hs. apply in_map_iff in Hs as (s' & <- & _). eauto.
Qed.
Print Assumptions C53_splits_read_back.

(** what is read has the type asked for (whatever the data, the defaults, strictness and imports); not for
    Tuple[a, b] and annotations that are other classes *)
Theorem C53_read_has_type_partial accepts strict imports inst t raw v : checked t ->
  raw_to_typed accepts strict imports inst raw t = COk v -> inhab accepts (fun _ => True) v t.
Proof. apply conv_sound. Qed.
Print Assumptions C53_read_has_type_partial.

(** Tuple[int, str] is read as a list *)
Theorem C53_fixed_tuple_refuted accepts strict imports inst : exists raw v,
  raw_to_typed accepts strict imports inst (Some raw) (TTup [TInt; TStr]) = COk v /\ ~ inhab accepts (fun _ => True) v (TTup [TInt; TStr]).
Proof.
  exists (PList [PInt 1; PStr "a"]), (PList [PInt 1; PStr "a"]). split; [reflexivity|]. intros (l & E & _). discriminate E.
Qed.
Print Assumptions C53_fixed_tuple_refuted.

(** where any other class is expected, every data is accepted unchanged *)
Theorem C53_other_class_refuted accepts strict inst n r : is_json r ->
  raw_to_typed accepts strict false inst (Some r) (TCls n) = COk r /\ ~ inhab accepts (fun _ => True) r (TCls n).
Proof. intros HJ. split; [cbn; apply plain_false|]. intros (m & ->). exact HJ. Qed.
Print Assumptions C53_other_class_refuted.

(** strict: everything in the data ends up in the result *)
Theorem C53_strict_ignores_nothing_partial accepts inst t r v : is_json r -> no_dashes r ->
  raw_to_typed accepts true false inst (Some r) t = COk v -> covered r (render v).
Proof. intros. eapply conv_strict; eauto. Qed.
Print Assumptions C53_strict_ignores_nothing_partial.

(** keys with dashes: a NamedTuple's a-b is silently ignored if there is also a_b (__dash_keys__ cannot be off: its default, the string "False", is true) *)
Theorem C53_dashes_refuted inst : exists t d1 d2 v, d1 <> d2 /\ is_json (PDict d1) /\ is_json (PDict d2) /\
  raw_to_typed (fun _ _ => true) true false inst (Some (PDict d1)) t = COk v /\
  raw_to_typed (fun _ _ => true) true false inst (Some (PDict d2)) t = COk v.
Proof.
  exists (TNamed "C" [("a_b", TInt, None)]), [("a-b", PInt 1); ("a_b", PInt 2)], [("a-b", PInt 3); ("a_b", PInt 2)], (PInst "C" [("a_b", PInt 2)]).
  split; [discriminate|]. split; [repeat constructor; cbn; intuition congruence|]. split; [repeat constructor; cbn; intuition congruence|]. split; reflexivity.
Qed.
Print Assumptions C53_dashes_refuted.

(** bad data raises JsonValueError and nothing else *)
Theorem C53_only_json_errors accepts strict inst t raw e : no_sets t -> raw_to_typed accepts strict false inst raw t <> CErr e.
Proof. intros H. apply no_other_error. exact H. Qed.
Print Assumptions C53_only_json_errors.

(** each field of a dataclass gets the given value, or else its default; a field without default must be given *)
Theorem C53_given_or_default accepts strict imports inst c fs d v :
  raw_to_typed accepts strict imports inst (Some (PDict d)) (TData c fs) = COk v ->
  exists kw, v = PInst c kw /\ Forall2 (fun f nv => fst nv = f_name f /\ exists raw,
      (dget (f_name f) d = Some raw \/ (dget (f_name f) d = None /\ f_default f = Some raw)) /\
      raw_to_typed accepts strict imports inst (Some raw) (f_type f) = COk (snd nv)) fs kw.
Proof.
  intros E. cbn [raw_to_typed] in E. destruct (conv_fields _ d fs) as [kw| |] eqn:EF; cbn [cbind] in E; try discriminate. unfold construct in E.
  destruct (_ && _); [discriminate|]. destruct (accepts c kw); [|discriminate]. injection E as <-. exists kw. split; [reflexivity|].
  apply conv_fields_ok in EF. induction EF as [|f nv fs kw [F1 F2] EF IH]; constructor; [|exact IH]. split; [exact F1|]. destruct (dget (f_name f) d) as [raw|]; [eauto|].
  destruct (f_default f) as [raw|]; [eauto|]. destruct (f_type f); discriminate F2.
Qed.
Print Assumptions C53_given_or_default.

(** a Union is read as the first of its alternatives that accepts the data *)
Theorem C53_union_first accepts strict imports inst ts r v : raw_to_typed accepts strict imports inst (Some r) (TUnion ts) = COk v ->
  exists before t after, ts = before ++ t :: after /\ raw_to_typed accepts strict imports inst (Some r) t = COk v /\
    forall t', In t' before -> raw_to_typed accepts strict imports inst (Some r) t' = CJson.
Proof.
  cbn [raw_to_typed]. induction ts as [|t ts IH]; cbn [conv_alts]; [discriminate|].
  destruct (raw_to_typed accepts strict imports inst (Some r) t) as [w| |] eqn:E; intros H.
  - exists [], t, ts. split; [reflexivity|]. split; [congruence|intros t' []].
  - destruct (IH H) as (b & t1 & a & -> & H1 & H2). exists (t :: b), t1, a. split; [reflexivity|]. split; [exact H1|]. intros t' [<-|Ht]; auto.
  - discriminate.
Qed.
Print Assumptions C53_union_first.

(** plain data of the right type is a good default ... *)
Theorem C53_plain_default_partial accepts strict inst t v : storable t -> inhab accepts is_json v t -> is_json v ->
  raw_to_typed accepts strict false inst (Some v) t = COk v.
Proof. intros HS HV HJ. destruct (@C53_read_back accepts strict inst t v HS HV) as (j & J1 & J2). rewrite (json_id HJ) in J1. injection J1 as <-. exact J2. Qed.
Print Assumptions C53_plain_default_partial.

(** ... but a dataclass instance or a tuple is not: leaving out such a field is an error although it has a default of its type *)
Theorem C53_object_default_refuted strict imports inst :
  let inner := TData "Inner" [("x", TInt, Some (PInt 1))] in
  let dflt := PInst "Inner" [("x", PInt 1)] in
  inhab (fun _ _ => true) (fun _ => True) dflt inner /\
  raw_to_typed (fun _ _ => true) strict imports inst (Some (PDict [])) (TData "Outer" [("inner", inner, Some dflt)]) = CJson /\
  inhab (fun _ _ => true) (fun _ => True) (PTup []) (TTupOf TInt) /\
  raw_to_typed (fun _ _ => true) strict imports inst (Some (PDict [])) (TData "Outer" [("shape", TTupOf TInt, Some (PTup []))]) = CJson.
Proof.
  cbv zeta. split; [cbn; eexists; split; [reflexivity|]; repeat split; left; eauto|]. split; [reflexivity|]. split; [|reflexivity]. cbn. eexists. split; [reflexivity|constructor].
Qed.
Print Assumptions C53_object_default_refuted.

(** non-vacuity: a nested configuration *)
Definition tc_type : ty :=
  TData "Config" [("name", TStr, None); ("sizes", TDict (TUnion [TInt; TFloat; TNone]), None);
                  ("inner", TUnion [TNamed "Point" [("x", TFloat, None)]; TNone], Some PNone); ("tags", TTupOf TStr, None); ("extra", TAny, Some PNone)].
Definition tc_value : pv :=
  PInst "Config" [("name", PStr "a"); ("sizes", PDict [("a", PInt 1); ("b", PNone)]);
                  ("inner", PInst "Point" [("x", PFloat (1 # 2))]); ("tags", PTup [PStr "t"]); ("extra", PDict [("k", PList [PBool true])])].
Definition tc_json : pv :=
  PDict [("name", PStr "a"); ("sizes", PDict [("a", PInt 1); ("b", PNone)]);
         ("inner", PDict [("x", PFloat (1 # 2))]); ("tags", PList [PStr "t"]); ("extra", PDict [("k", PList [PBool true])])].
Lemma tc_separate1 : separate (TNamed "Point" [("x", TFloat, None)]) TNone.
Proof. left. cbn. intros h [<-|[]] [H|[]]. discriminate. Qed.
Example C53_nonvacuous : storable tc_type /\ inhab (fun _ _ => true) is_json tc_value tc_type /\ checked tc_type /\ no_sets tc_type /\ no_dashes tc_json /\
  to_json_object tc_value = COk tc_json /\ raw_to_typed (fun _ _ => true) true false (fun _ _ => CJson) (Some tc_json) tc_type = COk tc_value /\
  raw_to_typed (fun _ _ => true) true false (fun _ _ => CJson) (Some (PDict [("name", PInt 1)])) tc_type = CJson.
Proof.
  split; [|split; [|split; [|split; [|split; [|split; [|split]]]]]]; try reflexivity; try (cbn; tauto).
  - cbn. repeat split; try (repeat constructor; cbn; intuition congruence).
  - cbn. eexists. split; [reflexivity|]. split; [reflexivity|]. repeat split.
    + eauto.
    + eexists. split; [reflexivity|]. constructor; [left; left; cbn; eauto|]. constructor; [right; right; left; reflexivity|constructor].
    + left. eexists. split; [reflexivity|]. repeat split. left. eauto.
    + eexists. split; [reflexivity|]. constructor; [eauto|constructor].
    + repeat constructor; cbn; intuition.
Qed.

(** ** C54 *)
(** a class or function called with a dictionary gets every named parameter: the given value or else the default, converted to the annotated
    type; other given values only with a double-star parameter, and if strict there are none otherwise *)
Theorem C54_arguments accepts strict imports inst fn d r : signature_ok (ob_params fn) -> NoDup (map fst d) ->
  safe_call_function accepts strict imports inst (PDict d) fn = COk r ->
  exists kw, ob_call fn [] kw = COk r /\
    receives (fun raw t => raw_to_typed accepts strict imports inst (Some raw) t) strict (ob_params fn) d kw.
Proof. apply call_receives. Qed.
Print Assumptions C54_arguments.

(** ... and it is called if all required arguments are given, nothing else is (or may be), and all have the right type *)
Theorem C54_called accepts strict imports inst fn d : signature_ok (ob_params fn) -> NoDup (map fst d) ->
  let conv := fun raw t => raw_to_typed accepts strict imports inst (Some raw) t in
  (forall p, In p (named_params (ob_params fn)) -> exists raw x,
     (dget (p_name p) d = Some raw \/ (dget (p_name p) d = None /\ p_default p = Some raw)) /\ conv raw (annotation p) = COk x) ->
  (forall p k raw, var_kw (ob_params fn) = Some p -> dget k d = Some raw -> ~ In k (map p_name (named_params (ob_params fn))) -> exists x, conv raw (annotation p) = COk x) ->
  (strict = true -> var_kw (ob_params fn) = None -> forall k raw, dget k d = Some raw -> In k (map p_name (named_params (ob_params fn)))) ->
  exists kw, safe_call_function accepts strict imports inst (PDict d) fn = ob_call fn [] kw.
Proof.
  cbv zeta. intros [S1 S2] ND HA HV HS. destruct (@bind_dict_total accepts strict imports inst (ob_params fn) S1 d [] S2 ND HA HV HS) as [kw E].
  exists kw. cbn [safe_call_function]. rewrite E. reflexivity.
Qed.
Print Assumptions C54_called.

(** arguments given as a list arrive in reverse order *)
Theorem C54_list_arguments_refuted accepts strict imports inst call :
  let fn := mkObj false true [mkParam "a" PosOrKw None None; mkParam "b" PosOrKw None None] call in
  safe_call_function accepts strict imports inst (PList [PInt 1; PInt 2]) fn = call [PInt 2; PInt 1] [].
Proof. destruct strict, imports; reflexivity. Qed.
Print Assumptions C54_list_arguments_refuted.

Section Config.
  Variable accepts : string -> list (string * pv) -> bool.
  Variable import : string -> option (string -> option pyobj).
  Variable value_of : pyobj -> pv.
  Variable type_of : pv -> pyobj.
  Variable of_type : ty -> option pyobj.
  Variable issub : pyobj -> cref -> bool.
  Variable meta : nat -> bool.
  Variable strict : bool.
  Notation to_instance := (raw_to_instance accepts import value_of type_of of_type issub meta strict).
  Notation config := (load_config accepts import value_of type_of of_type issub meta strict).

  (** where a class is expected (Type[...]) a subclass of it is returned *)
  Theorem C54_class_expected fuel d n v : to_instance fuel d (TClassOf n) = COk v ->
    exists x, v = value_of x /\ ob_class x = true /\ issub x (KUser n) = true.
  Proof.
    destruct fuel as [|fuel]; cbn [raw_to_instance]; [discriminate|]. destruct (as_str _); [|discriminate]. destruct (as_str _); [|discriminate].
    destruct (find_object import s s0) as [x| |]; cbn [cbind]; try discriminate. destruct (ob_class x) eqn:E1; cbn [andb]; [|discriminate].
    destruct (issub x (KUser n)) eqn:E2; [|discriminate]. intros [= <-]. eauto.
  Qed.

  (** the class named in the data, else the same name in megatron.energon, or the default class *)
  Definition named_object (d : list (string * pv)) (x : pyobj) (t : ty) : Prop :=
    (exists m o attrs, dget "__module__" d = Some (PStr m) /\ dget "__class__" d = Some (PStr o) /\
       (import m = Some attrs \/ (import m = None /\ import "megatron.energon" = Some attrs)) /\ attrs o = Some x) \/
    (dget "__module__" d = None /\ dget "__class__" d = None /\ of_type t = Some x).

  (** loading a configuration: the class gets, for every parameter, the value in the file, or else the caller's default,
      or else the parameter's default *)
  Theorem C54_config fuel data dk n r :
    NoDup (map fst data) -> NoDup (map fst dk) -> dget "__function__" data = None -> dget "__function__" dk = None ->
    (dget "__class__" (dict_update dk data) = None <-> dget "__module__" (dict_update dk data) = None) ->
    (forall v, dget "__class__" (dict_update dk data) = Some v \/ dget "__module__" (dict_update dk data) = Some v -> exists s, v = PStr s) ->
    config (S fuel) data (TCls n) (Some dk) = COk r ->
    exists x given, named_object (dict_update dk data) x (TCls n) /\
      (forall k, k <> "__module__" -> k <> "__class__" -> dget k given = file_or_default data dk k) /\
      dget "__module__" given = None /\ dget "__class__" given = None /\
      (signature_ok (ob_params x) -> exists kw, ob_call x [] kw = COk r /\
         receives (fun raw t => raw_to_typed accepts strict true (to_instance fuel) (Some raw) t) strict (ob_params x) given kw).
  Proof.
    intros ND1 ND2 F1 F2 HCM HSTR E. cbn [load_config raw_to_instance] in E. set (d := dict_update dk data) in *.
    assert (ND : NoDup (map fst d)) by (apply update_NoDup; exact ND2).
    assert (GET : forall k, dget k d = file_or_default data dk k) by (intros k; apply dget_update_gen; exact ND1).
    assert (CO : forall x kw, call_object accepts type_of issub meta strict (to_instance fuel) (TCls n) x kw = COk r -> NoDup (map fst kw) ->
      signature_ok (ob_params x) -> exists kw', ob_call x [] kw' = COk r /\ receives (fun raw t => raw_to_typed accepts strict true (to_instance fuel) (Some raw) t) strict (ob_params x) kw kw').
    { intros x kw EC NDk HS. unfold call_object in EC. destruct (safe_call_function accepts strict true (to_instance fuel) (PDict kw) x) as [r'| |] eqn:ES; cbn [cbind] in EC; try discriminate.
      assert (r' = r) as -> by (destruct (_ || _); congruence). eapply C54_arguments; eauto. }
    assert (FN : forall d0, dget "__function__" (dpop "__class__" d0) = dget "__function__" d0) by (intros; apply dget_dpop_other; discriminate).
    assert (MC : dget "__class__" (dpop "__module__" d) = dget "__class__" d) by (apply dget_dpop_other; discriminate).
    assert (MF : dget "__function__" (dpop "__module__" d) = None) by (rewrite dget_dpop_other by discriminate; rewrite GET; unfold file_or_default; rewrite F1; exact F2).
    unfold has in E. rewrite MC in E. destruct (dget "__class__" d) as [vc|] eqn:EC.
    - destruct (HSTR vc (or_introl eq_refl)) as [o ->]. destruct (dget "__module__" d) as [vm|] eqn:EM; [|destruct HCM as [_ H]; discriminate (H eq_refl)].
      destruct (HSTR vm (or_intror eq_refl)) as [m ->]. cbn [as_str] in E. unfold find_object in E.
      assert (FO : exists attrs, (import m = Some attrs \/ (import m = None /\ import "megatron.energon" = Some attrs)) /\ exists x, attrs o = Some x /\
        (if ob_class x && check_instance_type issub meta x (TCls n) then call_object accepts type_of issub meta strict (to_instance fuel) (TCls n) x (dpop "__class__" (dpop "__module__" d)) else CJson) = COk r).
      { destruct (import m) as [attrs|]; [exists attrs|destruct (import "megatron.energon") as [attrs|]; [exists attrs|discriminate]]; (split; [auto|]);
          (destruct (attrs o) as [x|]; [|discriminate]); exists x; (split; [reflexivity|exact E]). }
      destruct FO as (attrs & FA & x & FX & E'). destruct (_ && _); [|discriminate].
      exists x, (dpop "__class__" (dpop "__module__" d)). split; [left; exists m, o, attrs; auto|].
      split; [intros k K1 K2; rewrite !dget_dpop_other by congruence; apply GET|].
      split; [rewrite dget_dpop_other by discriminate; apply dget_dpop_same; exact ND|].
      split; [apply dget_dpop_same, dpop_NoDup; exact ND|]. apply (CO _ _ E'). apply dpop_NoDup, dpop_NoDup. exact ND.
    - rewrite MF in E. assert (EM : dget "__module__" d = None) by (apply HCM; reflexivity). rewrite EM in E. cbn [as_str] in E. unfold call_default in E. destruct (of_type (TCls n)) as [x|] eqn:EO; [|discriminate].
      exists x, (dpop "__module__" d). split; [right; auto|]. split; [intros k K1 K2; rewrite dget_dpop_other by congruence; apply GET|].
      split; [apply dget_dpop_same; exact ND|]. split; [rewrite MC; reflexivity|]. apply (CO _ _ E). apply dpop_NoDup. exact ND.
  Qed.
End Config.
Print Assumptions C54_class_expected.
Print Assumptions C54_config.

(** the class named in a file is not checked: one that has nothing to do with the expected class is accepted *)
Theorem C54_wrong_class_refuted : exists import type_of issub n data (x : pyobj) r,
  import "m" = Some (fun o => if String.eqb o "Other" then Some x else None) /\
  ob_class x = true /\ issub x (KUser n) = false /\ type_of r = x /\
  load_config (fun _ _ => true) import (fun _ => PObj 0) type_of (fun _ => None) issub (fun _ => false) true 5 data (TCls n) None = COk r.
Proof.
  set (x := mkObj true true [] (fun _ _ => COk (PObj 7))).
  exists (fun m => if String.eqb m "m" then Some (fun o => if String.eqb o "Other" then Some x else None) else None), (fun _ => x), (fun _ _ => false), 3,
    [("__module__", PStr "m"); ("__class__", PStr "Other")], x, (PObj 7). repeat split.
Qed.
Print Assumptions C54_wrong_class_refuted.

(** non-vacuity: a dataset factory with a required path, a default, keyword arguments; nested objects are created *)
Definition cf_child : pyobj := mkObj true true [mkParam "p" PosOrKw (Some TFloat) None] (fun _ kw => COk (PInst "Child" kw)).
Definition cf_factory : pyobj :=
  mkObj true true [mkParam "path" PosOrKw (Some TPath) None; mkParam "split" KwOnly (Some TStr) (Some (PStr "train")); mkParam "loader" KwOnly None (Some PNone)]
    (fun _ kw => COk (PInst "Factory" kw)).
Definition cf_import (m : string) : option (string -> option pyobj) :=
  if String.eqb m "megatron.energon" then Some (fun o => if String.eqb o "Child" then Some cf_child else if String.eqb o "Factory" then Some cf_factory else None) else None.
Example C54_nonvacuous : signature_ok (ob_params cf_factory) /\
  load_config (fun _ _ => true) cf_import (fun _ => PObj 0) (fun _ => cf_factory) (fun _ => Some cf_factory) (fun _ _ => true) (fun _ => false) true 5
    [("loader", PDict [("__module__", PStr "nowhere"); ("__class__", PStr "Child"); ("p", PInt 1)]); ("split", PStr "val")] (TCls 0) (Some [("path", PStr "/data"); ("split", PStr "test")]) =
  COk (PInst "Factory" [("path", PPath "/data"); ("split", PStr "val"); ("loader", PInst "Child" [("p", PInt 1)])]) /\
  load_config (fun _ _ => true) cf_import (fun _ => PObj 0) (fun _ => cf_factory) (fun _ => Some cf_factory) (fun _ _ => true) (fun _ => false) true 5
    [("loder", PInt 1)] (TCls 0) (Some [("path", PStr "/data")]) = CErr ValueError.
Proof.
  split; [|split; reflexivity]. split; [cbn; repeat split; discriminate|]. cbn. repeat constructor; cbn; intuition congruence.
Qed.
