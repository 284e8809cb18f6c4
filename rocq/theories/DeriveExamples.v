(** The model run on the tests of the derives [Jdefault] and [Jget], in
    /repo/crates/jdefault-rs/tests and /repo/crates/jget-rs/tests. Like Examples.v
    these are tests of the model and not properties: declarations and expected
    values are the ones written in the Rust tests. *)
From Coq Require Import Ascii String.
From Verif Require Import Base Ints Text Schema AttrParse Examples JDefault JGet.
Close Scope string_scope.

(** ** Jdefault *)

Definition jd (l : list entry) : list attribute := [mkattribute (txt "jd") l].
Definition jd_value (lit : string) : list attribute := jd [Property (txt "default") (txt lit)].
Definition jd_flag : list attribute := jd [Tag (txt "default")].
Definition int0 : dty := DKnown (vi 0).
Definition bare_field : list attribute * type_form * dty := ([], PlainPath, int0).
Definition valued (lit : string) : list attribute * type_form * dty := (jd_value lit, PlainPath, int0).
Definition pair0 : dty := DKnown (VList [vi 0; vi 0]).
(** what the pieces of code in these tests denote *)
Definition test_texts : texts := fun s =>
  match assoc s [("""jankincai"".to_string()", [vs "jankincai"]); ("""jankincai""", [vs "jankincai"]);
                 ("b""\x00\x01\x02""", [VBytes (hex [0; 1; 2])]);
                 ("(12, 0)", [VList [vi 12; vi 0]]); ("(1, 2)", [VList [vi 1; vi 2]])]%string with
  | Some l => Some l
  | None => option_map (fun n => [VInt (Z.of_N n)]) (numeral_of s)
  end.

(** test_struct.rs *)
Definition StructExampleBody : dty := DStruct [] Named [valued "1"].
Definition StructExample : dty := DStruct [] Named
  [bare_field; valued "18"; (jd_value """\""jankincai\"".to_string()""", PlainPath, DKnown (vs ""));
   (jd_value """\""jankincai\""""", OtherForm, DKnown (vs "")); (jd_value "b""\x00\x01\x02""", OtherForm, DKnown (vs ""));
   ([], PlainPath, StructExampleBody)].
Example test_jdefault : jdefault test_texts StructExample =
  Some (VList [vi 0; vi 18; vs "jankincai"; vs "jankincai"; VBytes (hex [0; 1; 2]); VList [vi 1]]).
Proof. vm_compute; reflexivity. Qed.
(** test_struct_newtype.rs *)
Example test_jdefault_newtype : jdefault test_texts (DStruct [] Tuple [valued "18"; valued "16"]) = Some (VList [vi 18; vi 16]).
Proof. vm_compute; reflexivity. Qed.
Example test_jdefault_newtype2 : jdefault test_texts (DStruct (jd_value """(1, 2)""") Tuple [([], WithParenthesis, pair0)]) =
  Some (VList [VList [vi 1; vi 2]]).
Proof. vm_compute; reflexivity. Qed.
(** test_jppe.rs *)
Example test_jbytes_default :
  jdefault test_texts (DStruct [] Named [([mkattribute (txt "jbytes") [Property (txt "default") (txt "18")]], PlainPath, int0)]) =
  Some (VList [vi 18]).
Proof. vm_compute; reflexivity. Qed.
(** test_enum.rs *)
Definition value2 : list attribute * shape * list (list attribute * type_form * dty) := ([], Named, [bare_field; bare_field]).
Example test_enum_example : jdefault test_texts (DEnum [] [([], Unit, []); (jd_flag, Named, [valued "3"; bare_field])]) =
  Some (VVariant 1 [vi 3; vi 0]).
Proof. vm_compute; reflexivity. Qed.
Example test_enum_example2 : jdefault test_texts (DEnum [] [(jd_flag, Unit, []); value2]) = Some (VVariant 0 []).
Proof. vm_compute; reflexivity. Qed.
Example test_enum_example3 : jdefault test_texts (DEnum [] [(jd_flag, Tuple, [valued "12"]); value2]) = Some (VVariant 0 [vi 12]).
Proof. vm_compute; reflexivity. Qed.
Example test_enum_example4 : jdefault test_texts (DEnum [] [(jd_flag, Tuple, [valued "12"; bare_field]); value2]) =
  Some (VVariant 0 [vi 12; vi 0]).
Proof. vm_compute; reflexivity. Qed.
Example test_enum_example5 :
  jdefault test_texts (DEnum [] [(jd_value """(12, 0)""", Tuple, [([], WithParenthesis, pair0)]); value2]) =
  Some (VVariant 0 [VList [vi 12; vi 0]]).
Proof. vm_compute; reflexivity. Qed.

(** ** Jget *)

Definition jget (l : list entry) : list attribute := [mkattribute (txt "jget") l].
Definition tag_get : list attribute := jget [Tag (txt "get")].
Definition tag_option : list attribute := jget [Tag (txt "get_option")].
Definition jget_value (k lit : string) : list attribute := jget [Property (txt k) (txt lit)].
Definition field (n : string) (t : list string) (a : list attribute) : gfield := mkgfield (txt n) (map txt t) a.
(** [Into]: between integers of different width, between texts, into [Option] *)
Definition test_into : conversions := fun t u v =>
  if bytes_eqb u (txt "Option<" ++ t ++ txt ">") then VOpt (Some v) else v.
Definition fields_are (l : list (string * (string * val))) : places := fun e =>
  assoc e (map (fun x => (fst x, (txt (fst (snd x)), snd (snd x)))) l).
Definition some (v : val) : option val := Some (VOpt (Some v)).
Definition none : option val := Some (VOpt None).

(** test_struct_get.rs *)
Definition JgetExample : gfields := NamedFields
  [field "value1" ["u16"] tag_get; field "value2" ["u16"] (jget_value "get" """value2:u32""");
   field "value3" ["u16"] (jget_value "get_option" """value3:u16"""); field "value" ["u16"] (jget_value "get" """value4:u32""")]%string.
Definition get_of (fs : gfields) (env : places) (n : string) : option val := struct_call test_into [] fs (txt n) env.
Example test_jget_example :
  map (get_of JgetExample (fields_are [("value1", ("u16", vi 0)); ("value2", ("u16", vi 0)); ("value3", ("u16", vi 0)); ("value", ("u16", vi 0))]%string))
    ["value1"; "value2"; "value3"; "value4"]%string = [Some (vi 0); Some (vi 0); some (vi 0); Some (vi 0)].
Proof. vm_compute; reflexivity. Qed.
(** test_struct_get_attr.rs *)
Definition attr_env : places := fields_are [("data.value", ("u16", vi 0)); ("data.jkc", ("u16", vi 0))]%string.
Example test_jget_attr_example :
  map (get_of (NamedFields [field "data" ["JgetDataExample"]%string (jget_value "get" """data.value:u16,data.jkc:u16""")]) attr_env)
    ["value"; "jkc"]%string = [Some (vi 0); Some (vi 0)].
Proof. vm_compute; reflexivity. Qed.
Example test_jget_attr_example2 :
  map (get_of (NamedFields [field "data" ["JgetDataExample"]%string (jget_value "get_option" """data.value:u16,data.jkc:u16""")]) attr_env)
    ["value"; "jkc"]%string = [some (vi 0); some (vi 0)].
Proof. vm_compute; reflexivity. Qed.
(** test_struct_get_borrow.rs *)
Definition ref_str : list string := ["&"; "'"; "a"; "str"]%string.
Definition opt_str : list string := ["Option"; "<"; "&"; "'"; "a"; "str"; ">"]%string.
Definition JgetBorrowExample : gfields := NamedFields
  [field "value1" ref_str tag_get; field "value2" ref_str (jget_value "get" """value2:&'a str""");
   field "value3" ref_str (jget_value "get" """value3:String"""); field "value4" ref_str (jget_value "get_option" """value4:&'a str""");
   field "value5" ref_str (jget_value "get_option" """value5:String""")]%string.
Example test_jget_borrow :
  map (get_of JgetBorrowExample (fields_are (map (fun n => (n, ("&'astr", vs n))) ["value1"; "value2"; "value3"; "value4"; "value5"]))%string)
    ["value1"; "value2"; "value3"; "value4"; "value5"]%string =
  [Some (vs "value1"); Some (vs "value2"); Some (vs "value3"); some (vs "value4"); some (vs "value5")].
Proof. vm_compute; reflexivity. Qed.
Definition JgetBorrowExample2 : gfields := NamedFields
  [field "value1" opt_str tag_option; field "value2" opt_str (jget_value "get_option" """value2:&'a str""");
   field "value3" opt_str (jget_value "get_option" """value3:String""")]%string.
Definition borrow2_env : places :=
  fields_are (map (fun n => (n, ("Option<&'astr>", VOpt (Some (vs n))))) ["value1"; "value2"; "value3"])%string.
Example test_jget_borrow2 :
  map (get_of JgetBorrowExample2 borrow2_env) ["value1"; "value2"; "value3"]%string = [some (VOpt (Some (vs "value1"))); some (vs "value2"); some (vs "value3")].
Proof. vm_compute; reflexivity. Qed.
(** test_struct_get_default.rs, test_enum_get_default.rs *)
Definition two_defaults : list attribute := jget_value "get_default" """length:u16,size:u32""".
Example test_jget_struct_example :
  map (fun n => struct_call test_into two_defaults (NamedFields []) (txt n) (fun _ => None)) ["length"; "size"]%string = [none; none].
Proof. vm_compute; reflexivity. Qed.
Example test_jget_enum_default :
  map (fun n => enum_call test_into two_defaults
         [mkgvariant [] (NamedFields [field "value" ["u8"] []]); mkgvariant [] (NamedFields [field "value" ["u8"] []; field "data" ["u16"] []])]%string
         (txt n) 0%nat (fields_are [("value", ("u8", vi 1))]%string)) ["length"; "size"]%string = [none; none].
Proof. vm_compute; reflexivity. Qed.
(** test_struct_get_string.rs *)
Definition JgetStringExample : gfields := NamedFields
  [field "value1" ["String"] tag_get; field "value2" ["String"] (jget_value "get" """value2:String""");
   field "value3" ["String"] (jget_value "get_option" """value3:String"""); field "value4" ["String"] (jget_value "get" """value4:&String""");
   field "value5" ["String"] (jget_value "get_option" """value5:&String""")]%string.
Example test_jget_string_example :
  map (get_of JgetStringExample (fields_are (map (fun n => (n, ("String", vs ""))) ["value1"; "value2"; "value3"; "value4"; "value5"]))%string)
    ["value1"; "value2"; "value3"; "value4"; "value5"]%string =
  [Some (vs ""); Some (vs ""); some (vs ""); Some (vs ""); some (vs "")].
Proof. vm_compute; reflexivity. Qed.
(** test_struct_get_vec.rs; the functions of value6 to value10 are not called there *)
Definition vec16 : list string := ["Vec"; "<"; "u16"; ">"]%string.
Definition opt_vec16 : list string := ["Option"; "<"; "Vec"; "<"; "u16"; ">"; ">"]%string.
Definition JgetVecExample : gfields := NamedFields
  [field "value1" vec16 tag_get; field "value2" vec16 (jget_value "get" """value2:Vec<u16>""");
   field "value3" vec16 (jget_value "get_option" """value3:Vec<u16>"""); field "value4" vec16 (jget_value "get" """value4:&Vec<u16>""");
   field "value5" vec16 (jget_value "get_option" """value5:&Vec<u16>"""); field "value6" vec16 (jget_value "get" """value6:Vec<u32>""");
   field "value7" vec16 (jget_value "get_option" """value7:Vec<u32>"""); field "value8" opt_vec16 (jget_value "get_option" """value8:Vec<u32>""");
   field "value9" opt_vec16 (jget_value "get_option" """value9:&Vec<u16>"""); field "value10" opt_vec16 (jget_value "get_option" """value10:Vec<u16>""")]%string.
Example test_jget_vec_example :
  map (get_of JgetVecExample (fields_are (map (fun n => (n, ("Vec<u16>", VList []))) ["value1"; "value2"; "value3"; "value4"; "value5"]))%string)
    ["value1"; "value2"; "value3"; "value4"; "value5"]%string =
  [Some (VList []); Some (VList []); some (VList []); Some (VList []); some (VList [])].
Proof. vm_compute; reflexivity. Qed.
Example test_jget_vec_example2 :
  get_of (NamedFields [field "value" ["u8"] (jget_value "get" """value:Vec<u16>""")])%string (fields_are [("value", ("u8", vi 0))])%string "value" =
  Some (VList [vi 0]).
Proof. vm_compute; reflexivity. Qed.
(** test_enum.rs *)
Definition EnumExample : list gvariant :=
  [mkgvariant [] (NamedFields [field "value" ["u8"] tag_option]);
   mkgvariant [] (NamedFields [field "value" ["u8"] tag_option; field "data" ["u16"] tag_option])]%string.
Definition enum_value (i : nat) : places :=
  fields_are (("value", ("u8", vi 1)) :: match i with O => [] | _ => [("data", ("u16", vi 2))] end)%string.
Definition enum_get (i : nat) (n : string) : option val := enum_call test_into [] EnumExample (txt n) i (enum_value i).
Example test_jget_enum_example :
  [enum_get 0 "value"; enum_get 0 "data"; enum_get 1 "value"; enum_get 1 "data"]%string = [some (vi 1); none; some (vi 1); some (vi 2)].
Proof. vm_compute; reflexivity. Qed.
(** test_struct_enum.rs: [body.get_value()] is what the enum's function returns *)
Definition SimpleStruct : gfields := NamedFields
  [field "body" ["SimpleEnumExample"] (jget_value "get" """body.get_value():Option<u8>, body.get_data():Option<u16>""")]%string.
Definition body_env (i : nat) : places := fun e =>
  if bytes_eqb e (txt "body.get_value()") then option_map (fun v => (txt "Option<u8>", v)) (enum_get i "value")
  else if bytes_eqb e (txt "body.get_data()") then option_map (fun v => (txt "Option<u16>", v)) (enum_get i "data") else None.
Example test_struct_enum :
  map (fun x => get_of SimpleStruct (body_env (fst x)) (snd x)) [(0%nat, "value"); (0%nat, "data"); (1%nat, "value"); (1%nat, "data")]%string =
  [some (vi 1); none; some (vi 1); some (vi 2)].
Proof. vm_compute; reflexivity. Qed.
(** test_enum_struct.rs *)
Definition SimpleEnum : list gvariant :=
  [mkgvariant (jget_value "get_option" """value:Option<u16>""") (TupleFields 1);
   mkgvariant (jget_value "get_option" """value:Option<u16>, data:Option<u16>, get_other():Option<String>""") (TupleFields 1)].
Definition v2_env : places := fields_are [("value", ("u16", vi 1)); ("data", ("u16", vi 2)); ("get_other()", ("String", vs "123"))]%string.
Example test_enum_struct :
  map (fun n => enum_call test_into [] SimpleEnum (txt n) 1%nat v2_env) ["value"; "data"; "other"]%string = [some (vi 1); some (vi 2); some (vs "123")].
Proof. vm_compute; reflexivity. Qed.
(** test_enum_struct2.rs *)
Definition SimpleEnum2 : list gvariant :=
  [mkgvariant (jget_value "get" """value:u16""") (TupleFields 1);
   mkgvariant (jget [Property (txt "get") (txt """value:u16"""); Property (txt "get_option") (txt """data:Option<u16>""")]) (TupleFields 1)].
Example test_enum_struct2 :
  map (fun n => enum_call test_into [] SimpleEnum2 (txt n) 1%nat v2_env) ["value"; "data"]%string = [Some (vi 1); some (vi 2)].
Proof. vm_compute; reflexivity. Qed.
