(** * The tests of the project, on the model: arrays

    Generated from the files of /repo/tests, test by test. *)
From Coq Require Import Ascii String List NArith ZArith Bool.
From Verif Require Import GoStr GoNum GoFloat Heap Common MapModel TestKit TestFacts.
Import ListNotations.
Local Open Scope bool_scope.

(** ** JSON_Array_Bool_test.go *)

(** JSON_Array_Bool_test.go:8-38 *)
Definition TestCanParseBoolArrayTrue (h0 : heap) : bool :=
  ParseJSONSuccessfully h0 (lit "{""key"":[true]}") (fun h json_obj =>
  (call (GetArrayOfBool h json_obj (lit "key")) (fun values values_errors =>
  negb values_errors &&
  (negb (is_nil values) &&
  (len_is values 1 &&
  (elem_is values 0 (Some (SBool true))))))) &&
  (call (GetArrayOfBoolValue h json_obj (lit "key")) (fun values values_errors =>
  negb values_errors &&
  (negb (is_nil values) &&
  (len_is values 1 &&
  (elem_is values 0 (Some (SBool true)))))))).
Lemma TestCanParseBoolArrayTrue_passes h0 : TestCanParseBoolArrayTrue h0 = true.
Proof. passes TestCanParseBoolArrayTrue. Qed.

(** JSON_Array_Bool_test.go:40-70 *)
Definition TestCanParseBoolArrayFalse (h0 : heap) : bool :=
  ParseJSONSuccessfully h0 (lit "{""key"":[false]}") (fun h json_obj =>
  (call (GetArrayOfBool h json_obj (lit "key")) (fun values values_errors =>
  negb values_errors &&
  (negb (is_nil values) &&
  (len_is values 1 &&
  (elem_is values 0 (Some (SBool false))))))) &&
  (call (GetArrayOfBoolValue h json_obj (lit "key")) (fun values values_errors =>
  negb values_errors &&
  (negb (is_nil values) &&
  (len_is values 1 &&
  (elem_is values 0 (Some (SBool false)))))))).
Lemma TestCanParseBoolArrayFalse_passes h0 : TestCanParseBoolArrayFalse h0 = true.
Proof. passes TestCanParseBoolArrayFalse. Qed.

(** JSON_Array_Bool_test.go:72-106 *)
Definition TestCanParseBoolArrayMulitple (h0 : heap) : bool :=
  ParseJSONSuccessfully h0 (lit "{""key"":[true, false]}") (fun h json_obj =>
  (call (GetArrayOfBool h json_obj (lit "key")) (fun values values_errors =>
  negb values_errors &&
  (negb (is_nil values) &&
  (len_is values 2 &&
  (elem_is values 0 (Some (SBool true)) &&
  (elem_is values 1 (Some (SBool false)))))))) &&
  (call (GetArrayOfBoolValue h json_obj (lit "key")) (fun values values_errors =>
  negb values_errors &&
  (negb (is_nil values) &&
  (len_is values 2 &&
  (elem_is values 0 (Some (SBool true)) &&
  (elem_is values 1 (Some (SBool false))))))))).
Lemma TestCanParseBoolArrayMulitple_passes h0 : TestCanParseBoolArrayMulitple h0 = true.
Proof. passes TestCanParseBoolArrayMulitple. Qed.

(** JSON_Array_Bool_test.go:108-128 *)
Definition TestCanParseBoolArrayMulitpleWithNil (h0 : heap) : bool :=
  ParseJSONSuccessfully h0 (lit "{""key"":[true, false, null]}") (fun h json_obj =>
  call (GetArrayOfBool h json_obj (lit "key")) (fun values values_errors =>
  negb values_errors &&
  (negb (is_nil values) &&
  (len_is values 3 &&
  (elem_is values 0 (Some (SBool true)) &&
  (elem_is values 1 (Some (SBool false)) &&
  (elem_nil values 2))))))).
Lemma TestCanParseBoolArrayMulitpleWithNil_passes h0 : TestCanParseBoolArrayMulitpleWithNil h0 = true.
Proof. passes TestCanParseBoolArrayMulitpleWithNil. Qed.

(** JSON_Array_Bool_test.go:130-144 *)
Definition TestCannotParseBoolArrayMulitpleWithNil (h0 : heap) : bool :=
  ParseJSONSuccessfully h0 (lit "{""key"":[true, false, null]}") (fun h json_obj =>
  call (GetArrayOfBoolValue h json_obj (lit "key")) (fun values values_errors =>
  (values_errors) &&
  (is_nil values))).
Lemma TestCannotParseBoolArrayMulitpleWithNil_passes h0 : TestCannotParseBoolArrayMulitpleWithNil h0 = true.
Proof. passes TestCannotParseBoolArrayMulitpleWithNil. Qed.

(** ** JSON_Array_Float_32_test.go *)

(** JSON_Array_Float_32_test.go:7-35 *)
Definition TestCanParseArrayContainingSingleFloat32Boundary (h0 : heap) : bool :=
  ParseJSONSuccessfully h0 (lit "{""key"":[0.0]}") (fun h json_obj =>
  (call (GetArrayOfFloat32 h json_obj (lit "key")) (fun value value_errors =>
  negb value_errors &&
  (negb (is_nil value) &&
  (len_is value 1 &&
  (elem_is value 0 (dec F32 (lit "0"))))))) &&
  (call (GetArrayOfFloat32Value h json_obj (lit "key")) (fun value value_errors =>
  negb value_errors &&
  (negb (is_nil value) &&
  (len_is value 1 &&
  (elem_is value 0 (dec F32 (lit "0")))))))).
Lemma TestCanParseArrayContainingSingleFloat32Boundary_passes h0 : TestCanParseArrayContainingSingleFloat32Boundary h0 = true.
Proof. passes TestCanParseArrayContainingSingleFloat32Boundary. Qed.

(** JSON_Array_Float_32_test.go:37-94 *)
Definition TestCanParseMultipleArraysContainingSingleFloat32LowBoundary (h0 : heap) : bool :=
  ParseJSONSuccessfully h0 (lit "{""key"":[0.123457],""key2"":[-0.7654321]}") (fun h json_obj =>
  (call (GetArrayOfFloat32 h json_obj (lit "key")) (fun value value_errors =>
  negb value_errors &&
  (negb (is_nil value) &&
  (len_is value 1 &&
  (elem_is value 0 (dec F32 (lit "0.12345699965953826904296875"))))))) &&
  ((call (GetArrayOfFloat32Value h json_obj (lit "key")) (fun value value_errors =>
  negb value_errors &&
  (negb (is_nil value) &&
  (len_is value 1 &&
  (elem_is value 0 (dec F32 (lit "0.12345699965953826904296875"))))))) &&
  ((call (GetArrayOfFloat32 h json_obj (lit "key2")) (fun value value_errors =>
  negb value_errors &&
  (negb (is_nil value) &&
  (len_is value 1 &&
  (elem_is value 0 (dec F32 (lit "-0.76543200016021728515625"))))))) &&
  (call (GetArrayOfFloat32Value h json_obj (lit "key2")) (fun value value_errors =>
  negb value_errors &&
  (negb (is_nil value) &&
  (len_is value 1 &&
  (elem_is value 0 (dec F32 (lit "-0.76543200016021728515625")))))))))).
Lemma TestCanParseMultipleArraysContainingSingleFloat32LowBoundary_passes h0 : TestCanParseMultipleArraysContainingSingleFloat32LowBoundary h0 = true.
Proof. passes TestCanParseMultipleArraysContainingSingleFloat32LowBoundary. Qed.

(** JSON_Array_Float_32_test.go:96-138 *)
Definition TestCanParseMultipleArraysContainingMultipleFloat32LowBoundary (h0 : heap) : bool :=
  ParseJSONSuccessfully h0 (lit "{""key"":[-0.7654,-1.2345],""key2"":[-3.4343,-4.3434]}") (fun h json_obj =>
  (HasKey h json_obj (lit "key") &&
  (Is IsArrayType h json_obj (lit "key") &&
  (call (GetArrayOfFloat32 h json_obj (lit "key")) (fun value value_errors =>
  negb value_errors &&
  (negb (is_nil value) &&
  (len_is value 2 &&
  (elem_is value 0 (dec F32 (lit "-0.765399992465972900390625")) &&
  (elem_is value 1 (dec F32 (lit "-1.23450005054473876953125")))))))))) &&
  (HasKey h json_obj (lit "key2") &&
  (Is IsArrayType h json_obj (lit "key2") &&
  (call (GetArrayOfFloat32 h json_obj (lit "key2")) (fun value value_errors =>
  negb value_errors &&
  (negb (is_nil value) &&
  (len_is value 2 &&
  (elem_is value 0 (dec F32 (lit "-3.434299945831298828125")) &&
  (elem_is value 1 (dec F32 (lit "-4.34340000152587890625"))))))))))).
Lemma TestCanParseMultipleArraysContainingMultipleFloat32LowBoundary_passes h0 : TestCanParseMultipleArraysContainingMultipleFloat32LowBoundary h0 = true.
Proof. passes TestCanParseMultipleArraysContainingMultipleFloat32LowBoundary. Qed.

(** JSON_Array_Float_32_test.go:140-162 *)
Definition TestCanParseArrayContainingMultipleFloat32LowBoundary (h0 : heap) : bool :=
  ParseJSONSuccessfully h0 (lit "{""key"":[-7.2323,-8.3477]}") (fun h json_obj =>
  HasKey h json_obj (lit "key") &&
  (Is IsArrayType h json_obj (lit "key") &&
  (call (GetArrayOfFloat32 h json_obj (lit "key")) (fun value value_errors =>
  negb value_errors &&
  (negb (is_nil value) &&
  (len_is value 2 &&
  (elem_is value 0 (dec F32 (lit "-7.2322998046875")) &&
  (elem_is value 1 (dec F32 (lit "-8.3477001190185546875")))))))))).
Lemma TestCanParseArrayContainingMultipleFloat32LowBoundary_passes h0 : TestCanParseArrayContainingMultipleFloat32LowBoundary h0 = true.
Proof. passes TestCanParseArrayContainingMultipleFloat32LowBoundary. Qed.

(** JSON_Array_Float_32_test.go:164-184 *)
Definition TestCanParseArrayContainingSingleFloat32HighBoundary (h0 : heap) : bool :=
  ParseJSONSuccessfully h0 (lit "{""key"":[340000000000000000000000000000000000000.00]}") (fun h json_obj =>
  HasKey h json_obj (lit "key") &&
  (Is IsArrayType h json_obj (lit "key") &&
  (call (GetArrayOfFloat32 h json_obj (lit "key")) (fun value value_errors =>
  negb value_errors &&
  (negb (is_nil value) &&
  (len_is value 1 &&
  (elem_is value 0 (dec F32 (lit "339999995214436424907732413799364296704"))))))))).
Lemma TestCanParseArrayContainingSingleFloat32HighBoundary_passes h0 : TestCanParseArrayContainingSingleFloat32HighBoundary h0 = true.
Proof. passes TestCanParseArrayContainingSingleFloat32HighBoundary. Qed.

(** JSON_Array_Float_32_test.go:186-224 *)
Definition TestCanParseMultipleArraysContainingSingleFloat32HighBoundary (h0 : heap) : bool :=
  ParseJSONSuccessfully h0 (lit "{""key"":[332000000000000000000000000000000000000.00],""key2"":[31000000000000000000000000000000000000.00]}") (fun h json_obj =>
  (HasKey h json_obj (lit "key") &&
  (Is IsArrayType h json_obj (lit "key") &&
  (call (GetArrayOfFloat32 h json_obj (lit "key")) (fun value value_errors =>
  negb value_errors &&
  (negb (is_nil value) &&
  (len_is value 1 &&
  (elem_is value 0 (dec F32 (lit "332000004394468096542414899474621005824"))))))))) &&
  (HasKey h json_obj (lit "key2") &&
  (Is IsArrayType h json_obj (lit "key2") &&
  (call (GetArrayOfFloat32 h json_obj (lit "key2")) (fun value value_errors =>
  negb value_errors &&
  (negb (is_nil value) &&
  (len_is value 1 &&
  (elem_is value 0 (dec F32 (lit "30999999921594078806028609916070002688")))))))))).
Lemma TestCanParseMultipleArraysContainingSingleFloat32HighBoundary_passes h0 : TestCanParseMultipleArraysContainingSingleFloat32HighBoundary h0 = true.
Proof. passes TestCanParseMultipleArraysContainingSingleFloat32HighBoundary. Qed.

(** JSON_Array_Float_32_test.go:226-268 *)
Definition TestCanParseMultipleArraysContainingMultipleFloat32HighBoundary (h0 : heap) : bool :=
  ParseJSONSuccessfully h0 (lit "{""key"":[2345000000000.44, 234880000.55],""key2"":[20000.66,56556465.88]}") (fun h json_obj =>
  (HasKey h json_obj (lit "key") &&
  (Is IsArrayType h json_obj (lit "key") &&
  (call (GetArrayOfFloat32 h json_obj (lit "key")) (fun value value_errors =>
  negb value_errors &&
  (negb (is_nil value) &&
  (len_is value 2 &&
  (elem_is value 0 (dec F32 (lit "2344999976960")) &&
  (elem_is value 1 (dec F32 (lit "234880000")))))))))) &&
  (HasKey h json_obj (lit "key2") &&
  (Is IsArrayType h json_obj (lit "key2") &&
  (call (GetArrayOfFloat32 h json_obj (lit "key2")) (fun value value_errors =>
  negb value_errors &&
  (negb (is_nil value) &&
  (len_is value 2 &&
  (elem_is value 0 (dec F32 (lit "20000.66015625")) &&
  (elem_is value 1 (dec F32 (lit "56556464"))))))))))).
Lemma TestCanParseMultipleArraysContainingMultipleFloat32HighBoundary_passes h0 : TestCanParseMultipleArraysContainingMultipleFloat32HighBoundary h0 = true.
Proof. passes TestCanParseMultipleArraysContainingMultipleFloat32HighBoundary. Qed.

(** JSON_Array_Float_32_test.go:270-292 *)
Definition TestCanParseArrayContainingMultiplFloat32HighBoundary (h0 : heap) : bool :=
  ParseJSONSuccessfully h0 (lit "{""key"":[564355345465.88, 324234234.344]}") (fun h json_obj =>
  HasKey h json_obj (lit "key") &&
  (Is IsArrayType h json_obj (lit "key") &&
  (call (GetArrayOfFloat32 h json_obj (lit "key")) (fun value value_errors =>
  negb value_errors &&
  (negb (is_nil value) &&
  (len_is value 2 &&
  (elem_is value 0 (dec F32 (lit "564355334144")) &&
  (elem_is value 1 (dec F32 (lit "324234240")))))))))).
Lemma TestCanParseArrayContainingMultiplFloat32HighBoundary_passes h0 : TestCanParseArrayContainingMultiplFloat32HighBoundary h0 = true.
Proof. passes TestCanParseArrayContainingMultiplFloat32HighBoundary. Qed.

(** JSON_Array_Float_32_test.go:294-307 *)
Definition TestCannotParseArrayContainingSingleFloat32BoundaryWhenNilValue (h0 : heap) : bool :=
  ParseJSONSuccessfully h0 (lit "{""key"":[null]}") (fun h json_obj =>
  call (GetArrayOfFloat32Value h json_obj (lit "key")) (fun value value_errors =>
  (value_errors) &&
  (is_nil value))).
Lemma TestCannotParseArrayContainingSingleFloat32BoundaryWhenNilValue_passes h0 : TestCannotParseArrayContainingSingleFloat32BoundaryWhenNilValue h0 = true.
Proof. passes TestCannotParseArrayContainingSingleFloat32BoundaryWhenNilValue. Qed.

(** ** JSON_Array_Float_64_test.go *)

(** JSON_Array_Float_64_test.go:9-39 *)
Definition TestCanParseArrayContainingSingleFloat64Boundary (h0 : heap) : bool :=
  ParseJSONSuccessfully h0 (lit "{""key"":[3402823466385288598117041834845169254400.000000]}") (fun h json_obj =>
  (call (GetArrayOfFloat64 h json_obj (lit "key")) (fun value value_errors =>
  negb value_errors &&
  (negb (is_nil value) &&
  (len_is value 1 &&
  (elem_is value 0 (dec F64 (lit "3402823466385288598117041834845169254400"))))))) &&
  (call (GetArrayOfFloat64Value h json_obj (lit "key")) (fun value value_errors =>
  negb value_errors &&
  (negb (is_nil value) &&
  (len_is value 1 &&
  (elem_is value 0 (dec F64 (lit "3402823466385288598117041834845169254400")))))))).
Lemma TestCanParseArrayContainingSingleFloat64Boundary_passes h0 : TestCanParseArrayContainingSingleFloat64Boundary h0 = true.
Proof. passes TestCanParseArrayContainingSingleFloat64Boundary. Qed.

(** JSON_Array_Float_64_test.go:41-99 *)
Definition TestCanParseMultipleArraysContainingSingleFloat64LowBoundary (h0 : heap) : bool :=
  ParseJSONSuccessfully h0 (lit "{""key"":[3402823466385288598117041834845169254400.000000],""key2"":[-3402823466385288598117041834845169254400.000000]}") (fun h json_obj =>
  (call (GetArrayOfFloat64 h json_obj (lit "key")) (fun value value_errors =>
  negb value_errors &&
  (negb (is_nil value) &&
  (len_is value 1 &&
  (elem_is value 0 (dec F64 (lit "3402823466385288598117041834845169254400"))))))) &&
  ((call (GetArrayOfFloat64Value h json_obj (lit "key")) (fun value value_errors =>
  negb value_errors &&
  (negb (is_nil value) &&
  (len_is value 1 &&
  (elem_is value 0 (dec F64 (lit "3402823466385288598117041834845169254400"))))))) &&
  ((call (GetArrayOfFloat64 h json_obj (lit "key2")) (fun value value_errors =>
  negb value_errors &&
  (negb (is_nil value) &&
  (len_is value 1 &&
  (elem_is value 0 (dec F64 (lit "-3402823466385288598117041834845169254400"))))))) &&
  (call (GetArrayOfFloat64Value h json_obj (lit "key2")) (fun value value_errors =>
  negb value_errors &&
  (negb (is_nil value) &&
  (len_is value 1 &&
  (elem_is value 0 (dec F64 (lit "-3402823466385288598117041834845169254400")))))))))).
Lemma TestCanParseMultipleArraysContainingSingleFloat64LowBoundary_passes h0 : TestCanParseMultipleArraysContainingSingleFloat64LowBoundary h0 = true.
Proof. passes TestCanParseMultipleArraysContainingSingleFloat64LowBoundary. Qed.

(** JSON_Array_Float_64_test.go:101-143 *)
Definition TestCanParseMultipleArraysContainingMultipleFloat64LowBoundary (h0 : heap) : bool :=
  ParseJSONSuccessfully h0 (lit "{""key"":[3402823466385288598117041834845169254400.000000,34028234663852885981170418348451692544000.000000],""key2"":[-3402823466385288598117041834845169254400.000000,-34028234663852885981170418348451692544000.000000]}") (fun h json_obj =>
  (HasKey h json_obj (lit "key") &&
  (Is IsArrayType h json_obj (lit "key") &&
  (call (GetArrayOfFloat64 h json_obj (lit "key")) (fun value value_errors =>
  negb value_errors &&
  (negb (is_nil value) &&
  (len_is value 2 &&
  (elem_is value 0 (dec F64 (lit "3402823466385288598117041834845169254400")) &&
  (elem_is value 1 (dec F64 (lit "34028234663852885981170418348451692544000")))))))))) &&
  (HasKey h json_obj (lit "key2") &&
  (Is IsArrayType h json_obj (lit "key2") &&
  (call (GetArrayOfFloat64 h json_obj (lit "key2")) (fun value value_errors =>
  negb value_errors &&
  (negb (is_nil value) &&
  (len_is value 2 &&
  (elem_is value 0 (dec F64 (lit "-3402823466385288598117041834845169254400")) &&
  (elem_is value 1 (dec F64 (lit "-34028234663852885981170418348451692544000"))))))))))).
Lemma TestCanParseMultipleArraysContainingMultipleFloat64LowBoundary_passes h0 : TestCanParseMultipleArraysContainingMultipleFloat64LowBoundary h0 = true.
Proof. passes TestCanParseMultipleArraysContainingMultipleFloat64LowBoundary. Qed.

(** JSON_Array_Float_64_test.go:145-167 *)
Definition TestCanParseArrayContainingMultipleFloat64LowBoundary (h0 : heap) : bool :=
  ParseJSONSuccessfully h0 (lit "{""key"":[3402823466385288598117041834845169254400.000000,-3402823466385288598117041834845169254400.000000]}") (fun h json_obj =>
  HasKey h json_obj (lit "key") &&
  (Is IsArrayType h json_obj (lit "key") &&
  (call (GetArrayOfFloat64 h json_obj (lit "key")) (fun value value_errors =>
  negb value_errors &&
  (negb (is_nil value) &&
  (len_is value 2 &&
  (elem_is value 0 (dec F64 (lit "3402823466385288598117041834845169254400")) &&
  (elem_is value 1 (dec F64 (lit "-3402823466385288598117041834845169254400")))))))))).
Lemma TestCanParseArrayContainingMultipleFloat64LowBoundary_passes h0 : TestCanParseArrayContainingMultipleFloat64LowBoundary h0 = true.
Proof. passes TestCanParseArrayContainingMultipleFloat64LowBoundary. Qed.

(** JSON_Array_Float_64_test.go:169-189 *)
Definition TestCanParseArrayContainingSingleFloat64HighBoundary (h0 : heap) : bool :=
  ParseJSONSuccessfully h0 (lit "{""key"":[17976931348623157580412819756850388593900235011794141176754562789180111453639664485361928830517704263393537268510363518759043843737070229269956251768752166883397940628862983287625967246810352023792017211936260189893797509826303293149283469713429932049693599732425511693654044437030940398714664210204414967808.000000]}") (fun h json_obj =>
  HasKey h json_obj (lit "key") &&
  (Is IsArrayType h json_obj (lit "key") &&
  (call (GetArrayOfFloat64 h json_obj (lit "key")) (fun value value_errors =>
  negb value_errors &&
  (negb (is_nil value) &&
  (len_is value 1 &&
  (elem_is value 0 (dec F64 (lit "17976931348623157580412819756850388593900235011794141176754562789180111453639664485361928830517704263393537268510363518759043843737070229269956251768752166883397940628862983287625967246810352023792017211936260189893797509826303293149283469713429932049693599732425511693654044437030940398714664210204414967808"))))))))).
Lemma TestCanParseArrayContainingSingleFloat64HighBoundary_passes h0 : TestCanParseArrayContainingSingleFloat64HighBoundary h0 = true.
Proof. passes TestCanParseArrayContainingSingleFloat64HighBoundary. Qed.

(** JSON_Array_Float_64_test.go:191-229 *)
Definition TestCanParseMultipleArraysContainingSingleFloat64HighBoundary (h0 : heap) : bool :=
  ParseJSONSuccessfully h0 (lit "{""key"":[17976931348623157580412819756850388593900235011794141176754562789180111453639664485361928830517704263393537268510363518759043843737070229269956251768752166883397940628862983287625967246810352023792017211936260189893797509826303293149283469713429932049693599732425511693654044437030940398714664210204414967808.000000],""key2"":[-1797693134862315633301262629765050630866728936377003738459752501701914801454763796210449641241516314779480883561305033792001456611676070178718250902275612892141556670084334558762242165238180420033094130920939320073544954448635079731752693526288593899415905695239791325170347763968341437224060469123940876288.000000]}") (fun h json_obj =>
  (HasKey h json_obj (lit "key") &&
  (Is IsArrayType h json_obj (lit "key") &&
  (call (GetArrayOfFloat64 h json_obj (lit "key")) (fun value value_errors =>
  negb value_errors &&
  (negb (is_nil value) &&
  (len_is value 1 &&
  (elem_is value 0 (dec F64 (lit "17976931348623157580412819756850388593900235011794141176754562789180111453639664485361928830517704263393537268510363518759043843737070229269956251768752166883397940628862983287625967246810352023792017211936260189893797509826303293149283469713429932049693599732425511693654044437030940398714664210204414967808"))))))))) &&
  (HasKey h json_obj (lit "key2") &&
  (Is IsArrayType h json_obj (lit "key2") &&
  (call (GetArrayOfFloat64 h json_obj (lit "key2")) (fun value value_errors =>
  negb value_errors &&
  (negb (is_nil value) &&
  (len_is value 1 &&
  (elem_is value 0 (dec F64 (lit "-1797693134862315633301262629765050630866728936377003738459752501701914801454763796210449641241516314779480883561305033792001456611676070178718250902275612892141556670084334558762242165238180420033094130920939320073544954448635079731752693526288593899415905695239791325170347763968341437224060469123940876288")))))))))).
Lemma TestCanParseMultipleArraysContainingSingleFloat64HighBoundary_passes h0 : TestCanParseMultipleArraysContainingSingleFloat64HighBoundary h0 = true.
Proof. passes TestCanParseMultipleArraysContainingSingleFloat64HighBoundary. Qed.

(** JSON_Array_Float_64_test.go:231-273 *)
Definition TestCanParseMultipleArraysContainingMultipleFloat64HighBoundary (h0 : heap) : bool :=
  ParseJSONSuccessfully h0 (lit "{""key"":[17976931348623157580412819756850388593900235011794141176754562789180111453639664485361928830517704263393537268510363518759043843737070229269956251768752166883397940628862983287625967246810352023792017211936260189893797509826303293149283469713429932049693599732425511693654044437030940398714664210204414967808.000000,-1797693134862315633301262629765050630866728936377003738459752501701914801454763796210449641241516314779480883561305033792001456611676070178718250902275612892141556670084334558762242165238180420033094130920939320073544954448635079731752693526288593899415905695239791325170347763968341437224060469123940876288.000000],""key2"":[179769313486231555533875053856505798803966983337549725144993764094185458651151213850686011511010749505456035650522295998956212676040672471104489198065086051951765829958310720251202056558639618106677688700051013325114820661488804874226791012312959433344499677148806642254843733913412106056943174918862798848.000000,-17976931348623157502450307665650395951073175908792634689744747928420051238696412827658339304386295443668616741454281444956604513885800883802282892847127414510774042258361755931375745647158567784825699968015831003071400761992556262159798686310270932483722690808673786791032134012196720022060035490269102080.000000]}") (fun h json_obj =>
  (HasKey h json_obj (lit "key") &&
  (Is IsArrayType h json_obj (lit "key") &&
  (call (GetArrayOfFloat64 h json_obj (lit "key")) (fun value value_errors =>
  negb value_errors &&
  (negb (is_nil value) &&
  (len_is value 2 &&
  (elem_is value 0 (dec F64 (lit "17976931348623157580412819756850388593900235011794141176754562789180111453639664485361928830517704263393537268510363518759043843737070229269956251768752166883397940628862983287625967246810352023792017211936260189893797509826303293149283469713429932049693599732425511693654044437030940398714664210204414967808")) &&
  (elem_is value 1 (dec F64 (lit "-1797693134862315633301262629765050630866728936377003738459752501701914801454763796210449641241516314779480883561305033792001456611676070178718250902275612892141556670084334558762242165238180420033094130920939320073544954448635079731752693526288593899415905695239791325170347763968341437224060469123940876288")))))))))) &&
  (HasKey h json_obj (lit "key2") &&
  (Is IsArrayType h json_obj (lit "key2") &&
  (call (GetArrayOfFloat64 h json_obj (lit "key2")) (fun value value_errors =>
  negb value_errors &&
  (negb (is_nil value) &&
  (len_is value 2 &&
  (elem_is value 0 (dec F64 (lit "179769313486231555533875053856505798803966983337549725144993764094185458651151213850686011511010749505456035650522295998956212676040672471104489198065086051951765829958310720251202056558639618106677688700051013325114820661488804874226791012312959433344499677148806642254843733913412106056943174918862798848")) &&
  (elem_is value 1 (dec F64 (lit "-17976931348623157502450307665650395951073175908792634689744747928420051238696412827658339304386295443668616741454281444956604513885800883802282892847127414510774042258361755931375745647158567784825699968015831003071400761992556262159798686310270932483722690808673786791032134012196720022060035490269102080"))))))))))).
Lemma TestCanParseMultipleArraysContainingMultipleFloat64HighBoundary_passes h0 : TestCanParseMultipleArraysContainingMultipleFloat64HighBoundary h0 = true.
Proof. passes TestCanParseMultipleArraysContainingMultipleFloat64HighBoundary. Qed.

(** JSON_Array_Float_64_test.go:275-297 *)
Definition TestCanParseArrayContainingMultiplFloat64HighBoundary (h0 : heap) : bool :=
  ParseJSONSuccessfully h0 (lit "{""key"":[17976931348623157580412819756850388593900235011794141176754562789180111453639664485361928830517704263393537268510363518759043843737070229269956251768752166883397940628862983287625967246810352023792017211936260189893797509826303293149283469713429932049693599732425511693654044437030940398714664210204414967808.000000,-1797693134862315633301262629765050630866728936377003738459752501701914801454763796210449641241516314779480883561305033792001456611676070178718250902275612892141556670084334558762242165238180420033094130920939320073544954448635079731752693526288593899415905695239791325170347763968341437224060469123940876288.000000]}") (fun h json_obj =>
  HasKey h json_obj (lit "key") &&
  (Is IsArrayType h json_obj (lit "key") &&
  (call (GetArrayOfFloat64 h json_obj (lit "key")) (fun value value_errors =>
  negb value_errors &&
  (negb (is_nil value) &&
  (len_is value 2 &&
  (elem_is value 0 (dec F64 (lit "17976931348623157580412819756850388593900235011794141176754562789180111453639664485361928830517704263393537268510363518759043843737070229269956251768752166883397940628862983287625967246810352023792017211936260189893797509826303293149283469713429932049693599732425511693654044437030940398714664210204414967808")) &&
  (elem_is value 1 (dec F64 (lit "-1797693134862315633301262629765050630866728936377003738459752501701914801454763796210449641241516314779480883561305033792001456611676070178718250902275612892141556670084334558762242165238180420033094130920939320073544954448635079731752693526288593899415905695239791325170347763968341437224060469123940876288")))))))))).
Lemma TestCanParseArrayContainingMultiplFloat64HighBoundary_passes h0 : TestCanParseArrayContainingMultiplFloat64HighBoundary h0 = true.
Proof. passes TestCanParseArrayContainingMultiplFloat64HighBoundary. Qed.

(** JSON_Array_Float_64_test.go:299-312 *)
Definition TestCannotParseArrayContainingSingleFloat64BoundaryWhenNilValue (h0 : heap) : bool :=
  ParseJSONSuccessfully h0 (lit "{""key"":[null]}") (fun h json_obj =>
  call (GetArrayOfFloat64Value h json_obj (lit "key")) (fun value value_errors =>
  (value_errors) &&
  (is_nil value))).
Lemma TestCannotParseArrayContainingSingleFloat64BoundaryWhenNilValue_passes h0 : TestCannotParseArrayContainingSingleFloat64BoundaryWhenNilValue h0 = true.
Proof. passes TestCannotParseArrayContainingSingleFloat64BoundaryWhenNilValue. Qed.

(** ** JSON_Array_Integer_signed_08_test.go *)

(** JSON_Array_Integer_signed_08_test.go:7-27 *)
Definition TestCanParseArrayContainingSingleInt8LowBoundary (h0 : heap) : bool :=
  ParseJSONSuccessfully h0 (lit "{""key"":[-1]}") (fun h json_obj =>
  HasKey h json_obj (lit "key") &&
  (Is IsArrayType h json_obj (lit "key") &&
  (call (GetArrayOfInt KInt8 h json_obj (lit "key")) (fun value value_errors =>
  negb value_errors &&
  (negb (is_nil value) &&
  (len_is value 1 &&
  (elem_is value 0 (Some (SInt KInt8 (-1)))))))))).
Lemma TestCanParseArrayContainingSingleInt8LowBoundary_passes h0 : TestCanParseArrayContainingSingleInt8LowBoundary h0 = true.
Proof. passes TestCanParseArrayContainingSingleInt8LowBoundary. Qed.

(** JSON_Array_Integer_signed_08_test.go:29-67 *)
Definition TestCanParseMultipleArraysContainingSingleInt8LowBoundary (h0 : heap) : bool :=
  ParseJSONSuccessfully h0 (lit "{""key"":[-1],""key2"":[-2]}") (fun h json_obj =>
  (HasKey h json_obj (lit "key") &&
  (Is IsArrayType h json_obj (lit "key") &&
  (call (GetArrayOfInt KInt8 h json_obj (lit "key")) (fun value value_errors =>
  negb value_errors &&
  (negb (is_nil value) &&
  (len_is value 1 &&
  (elem_is value 0 (Some (SInt KInt8 (-1)))))))))) &&
  (HasKey h json_obj (lit "key2") &&
  (Is IsArrayType h json_obj (lit "key2") &&
  (call (GetArrayOfInt KInt8 h json_obj (lit "key2")) (fun value value_errors =>
  negb value_errors &&
  (negb (is_nil value) &&
  (len_is value 1 &&
  (elem_is value 0 (Some (SInt KInt8 (-2))))))))))).
Lemma TestCanParseMultipleArraysContainingSingleInt8LowBoundary_passes h0 : TestCanParseMultipleArraysContainingSingleInt8LowBoundary h0 = true.
Proof. passes TestCanParseMultipleArraysContainingSingleInt8LowBoundary. Qed.

(** JSON_Array_Integer_signed_08_test.go:69-111 *)
Definition TestCanParseMultipleArraysContainingMultipleInt8LowBoundary (h0 : heap) : bool :=
  ParseJSONSuccessfully h0 (lit "{""key"":[-1,-2],""key2"":[-3,-4]}") (fun h json_obj =>
  (HasKey h json_obj (lit "key") &&
  (Is IsArrayType h json_obj (lit "key") &&
  (call (GetArrayOfInt KInt8 h json_obj (lit "key")) (fun value value_errors =>
  negb value_errors &&
  (negb (is_nil value) &&
  (len_is value 2 &&
  (elem_is value 0 (Some (SInt KInt8 (-1))) &&
  (elem_is value 1 (Some (SInt KInt8 (-2))))))))))) &&
  (HasKey h json_obj (lit "key2") &&
  (Is IsArrayType h json_obj (lit "key2") &&
  (call (GetArrayOfInt KInt8 h json_obj (lit "key2")) (fun value value_errors =>
  negb value_errors &&
  (negb (is_nil value) &&
  (len_is value 2 &&
  (elem_is value 0 (Some (SInt KInt8 (-3))) &&
  (elem_is value 1 (Some (SInt KInt8 (-4)))))))))))).
Lemma TestCanParseMultipleArraysContainingMultipleInt8LowBoundary_passes h0 : TestCanParseMultipleArraysContainingMultipleInt8LowBoundary h0 = true.
Proof. passes TestCanParseMultipleArraysContainingMultipleInt8LowBoundary. Qed.

(** JSON_Array_Integer_signed_08_test.go:113-135 *)
Definition TestCanParseArrayContainingMultipleInt8LowBoundary (h0 : heap) : bool :=
  ParseJSONSuccessfully h0 (lit "{""key"":[-1,-2]}") (fun h json_obj =>
  HasKey h json_obj (lit "key") &&
  (Is IsArrayType h json_obj (lit "key") &&
  (call (GetArrayOfInt KInt8 h json_obj (lit "key")) (fun value value_errors =>
  negb value_errors &&
  (negb (is_nil value) &&
  (len_is value 2 &&
  (elem_is value 0 (Some (SInt KInt8 (-1))) &&
  (elem_is value 1 (Some (SInt KInt8 (-2))))))))))).
Lemma TestCanParseArrayContainingMultipleInt8LowBoundary_passes h0 : TestCanParseArrayContainingMultipleInt8LowBoundary h0 = true.
Proof. passes TestCanParseArrayContainingMultipleInt8LowBoundary. Qed.

(** JSON_Array_Integer_signed_08_test.go:137-157 *)
Definition TestCanParseArrayContainingSingleInt8HighBoundary (h0 : heap) : bool :=
  ParseJSONSuccessfully h0 (lit "{""key"":[-128]}") (fun h json_obj =>
  HasKey h json_obj (lit "key") &&
  (Is IsArrayType h json_obj (lit "key") &&
  (call (GetArrayOfInt KInt8 h json_obj (lit "key")) (fun value value_errors =>
  negb value_errors &&
  (negb (is_nil value) &&
  (len_is value 1 &&
  (elem_is value 0 (Some (SInt KInt8 (-128)))))))))).
Lemma TestCanParseArrayContainingSingleInt8HighBoundary_passes h0 : TestCanParseArrayContainingSingleInt8HighBoundary h0 = true.
Proof. passes TestCanParseArrayContainingSingleInt8HighBoundary. Qed.

(** JSON_Array_Integer_signed_08_test.go:159-197 *)
Definition TestCanParseMultipleArraysContainingSingleHighBoundary (h0 : heap) : bool :=
  ParseJSONSuccessfully h0 (lit "{""key"":[-128],""key2"":[-127]}") (fun h json_obj =>
  (HasKey h json_obj (lit "key") &&
  (Is IsArrayType h json_obj (lit "key") &&
  (call (GetArrayOfInt KInt8 h json_obj (lit "key")) (fun value value_errors =>
  negb value_errors &&
  (negb (is_nil value) &&
  (len_is value 1 &&
  (elem_is value 0 (Some (SInt KInt8 (-128)))))))))) &&
  (HasKey h json_obj (lit "key2") &&
  (Is IsArrayType h json_obj (lit "key2") &&
  (call (GetArrayOfInt KInt8 h json_obj (lit "key2")) (fun value value_errors =>
  negb value_errors &&
  (negb (is_nil value) &&
  (len_is value 1 &&
  (elem_is value 0 (Some (SInt KInt8 (-127))))))))))).
Lemma TestCanParseMultipleArraysContainingSingleHighBoundary_passes h0 : TestCanParseMultipleArraysContainingSingleHighBoundary h0 = true.
Proof. passes TestCanParseMultipleArraysContainingSingleHighBoundary. Qed.

(** JSON_Array_Integer_signed_08_test.go:199-241 *)
Definition TestCanParseMultipleArraysContainingMultipleHighBoundary (h0 : heap) : bool :=
  ParseJSONSuccessfully h0 (lit "{""key"":[-128,-127],""key2"":[-126,-125]}") (fun h json_obj =>
  (HasKey h json_obj (lit "key") &&
  (Is IsArrayType h json_obj (lit "key") &&
  (call (GetArrayOfInt KInt8 h json_obj (lit "key")) (fun value value_errors =>
  negb value_errors &&
  (negb (is_nil value) &&
  (len_is value 2 &&
  (elem_is value 0 (Some (SInt KInt8 (-128))) &&
  (elem_is value 1 (Some (SInt KInt8 (-127))))))))))) &&
  (HasKey h json_obj (lit "key2") &&
  (Is IsArrayType h json_obj (lit "key2") &&
  (call (GetArrayOfInt KInt8 h json_obj (lit "key2")) (fun value value_errors =>
  negb value_errors &&
  (negb (is_nil value) &&
  (len_is value 2 &&
  (elem_is value 0 (Some (SInt KInt8 (-126))) &&
  (elem_is value 1 (Some (SInt KInt8 (-125)))))))))))).
Lemma TestCanParseMultipleArraysContainingMultipleHighBoundary_passes h0 : TestCanParseMultipleArraysContainingMultipleHighBoundary h0 = true.
Proof. passes TestCanParseMultipleArraysContainingMultipleHighBoundary. Qed.

(** JSON_Array_Integer_signed_08_test.go:243-265 *)
Definition TestCanParseArrayContainingMultipleInt8HighBoundary (h0 : heap) : bool :=
  ParseJSONSuccessfully h0 (lit "{""key"":[-128,-127]}") (fun h json_obj =>
  HasKey h json_obj (lit "key") &&
  (Is IsArrayType h json_obj (lit "key") &&
  (call (GetArrayOfInt KInt8 h json_obj (lit "key")) (fun value value_errors =>
  negb value_errors &&
  (negb (is_nil value) &&
  (len_is value 2 &&
  (elem_is value 0 (Some (SInt KInt8 (-128))) &&
  (elem_is value 1 (Some (SInt KInt8 (-127))))))))))).
Lemma TestCanParseArrayContainingMultipleInt8HighBoundary_passes h0 : TestCanParseArrayContainingMultipleInt8HighBoundary h0 = true.
Proof. passes TestCanParseArrayContainingMultipleInt8HighBoundary. Qed.

(** ** JSON_Array_Integer_signed_16_test.go *)

(** JSON_Array_Integer_signed_16_test.go:7-27 *)
Definition TestCanParseArrayContainingSingleInt16LowBoundary (h0 : heap) : bool :=
  ParseJSONSuccessfully h0 (lit "{""key"":[-129]}") (fun h json_obj =>
  HasKey h json_obj (lit "key") &&
  (Is IsArrayType h json_obj (lit "key") &&
  (call (GetArrayOfInt KInt16 h json_obj (lit "key")) (fun value value_errors =>
  negb value_errors &&
  (negb (is_nil value) &&
  (len_is value 1 &&
  (elem_is value 0 (Some (SInt KInt16 (-129)))))))))).
Lemma TestCanParseArrayContainingSingleInt16LowBoundary_passes h0 : TestCanParseArrayContainingSingleInt16LowBoundary h0 = true.
Proof. passes TestCanParseArrayContainingSingleInt16LowBoundary. Qed.

(** JSON_Array_Integer_signed_16_test.go:29-67 *)
Definition TestCanParseMultipleArraysContainingSingleLowBoundary (h0 : heap) : bool :=
  ParseJSONSuccessfully h0 (lit "{""key"":[-129],""key2"":[-130]}") (fun h json_obj =>
  (HasKey h json_obj (lit "key") &&
  (Is IsArrayType h json_obj (lit "key") &&
  (call (GetArrayOfInt KInt16 h json_obj (lit "key")) (fun value value_errors =>
  negb value_errors &&
  (negb (is_nil value) &&
  (len_is value 1 &&
  (elem_is value 0 (Some (SInt KInt16 (-129)))))))))) &&
  (HasKey h json_obj (lit "key2") &&
  (Is IsArrayType h json_obj (lit "key2") &&
  (call (GetArrayOfInt KInt16 h json_obj (lit "key2")) (fun value value_errors =>
  negb value_errors &&
  (negb (is_nil value) &&
  (len_is value 1 &&
  (elem_is value 0 (Some (SInt KInt16 (-130))))))))))).
Lemma TestCanParseMultipleArraysContainingSingleLowBoundary_passes h0 : TestCanParseMultipleArraysContainingSingleLowBoundary h0 = true.
Proof. passes TestCanParseMultipleArraysContainingSingleLowBoundary. Qed.

(** JSON_Array_Integer_signed_16_test.go:69-111 *)
Definition TestCanParseMultipleArraysContainingMultipleInt16LowBoundary (h0 : heap) : bool :=
  ParseJSONSuccessfully h0 (lit "{""key"":[-129,-130],""key2"":[-131,-132]}") (fun h json_obj =>
  (HasKey h json_obj (lit "key") &&
  (Is IsArrayType h json_obj (lit "key") &&
  (call (GetArrayOfInt KInt16 h json_obj (lit "key")) (fun value value_errors =>
  negb value_errors &&
  (negb (is_nil value) &&
  (len_is value 2 &&
  (elem_is value 0 (Some (SInt KInt16 (-129))) &&
  (elem_is value 1 (Some (SInt KInt16 (-130))))))))))) &&
  (HasKey h json_obj (lit "key2") &&
  (Is IsArrayType h json_obj (lit "key2") &&
  (call (GetArrayOfInt KInt16 h json_obj (lit "key2")) (fun value value_errors =>
  negb value_errors &&
  (negb (is_nil value) &&
  (len_is value 2 &&
  (elem_is value 0 (Some (SInt KInt16 (-131))) &&
  (elem_is value 1 (Some (SInt KInt16 (-132)))))))))))).
Lemma TestCanParseMultipleArraysContainingMultipleInt16LowBoundary_passes h0 : TestCanParseMultipleArraysContainingMultipleInt16LowBoundary h0 = true.
Proof. passes TestCanParseMultipleArraysContainingMultipleInt16LowBoundary. Qed.

(** JSON_Array_Integer_signed_16_test.go:113-135 *)
Definition TestCanParseArrayContainingMultipleInt16LowBoundary (h0 : heap) : bool :=
  ParseJSONSuccessfully h0 (lit "{""key"":[-129,-130]}") (fun h json_obj =>
  HasKey h json_obj (lit "key") &&
  (Is IsArrayType h json_obj (lit "key") &&
  (call (GetArrayOfInt KInt16 h json_obj (lit "key")) (fun value value_errors =>
  negb value_errors &&
  (negb (is_nil value) &&
  (len_is value 2 &&
  (elem_is value 0 (Some (SInt KInt16 (-129))) &&
  (elem_is value 1 (Some (SInt KInt16 (-130))))))))))).
Lemma TestCanParseArrayContainingMultipleInt16LowBoundary_passes h0 : TestCanParseArrayContainingMultipleInt16LowBoundary h0 = true.
Proof. passes TestCanParseArrayContainingMultipleInt16LowBoundary. Qed.

(** JSON_Array_Integer_signed_16_test.go:137-157 *)
Definition TestCanParseArrayContainingSingleInt16HighBoundary (h0 : heap) : bool :=
  ParseJSONSuccessfully h0 (lit "{""key"":[-32768]}") (fun h json_obj =>
  HasKey h json_obj (lit "key") &&
  (Is IsArrayType h json_obj (lit "key") &&
  (call (GetArrayOfInt KInt16 h json_obj (lit "key")) (fun value value_errors =>
  negb value_errors &&
  (negb (is_nil value) &&
  (len_is value 1 &&
  (elem_is value 0 (Some (SInt KInt16 (-32768)))))))))).
Lemma TestCanParseArrayContainingSingleInt16HighBoundary_passes h0 : TestCanParseArrayContainingSingleInt16HighBoundary h0 = true.
Proof. passes TestCanParseArrayContainingSingleInt16HighBoundary. Qed.

(** JSON_Array_Integer_signed_16_test.go:159-197 *)
Definition TestCanParseMultipleArraysContainingSingleInt16HighBoundary (h0 : heap) : bool :=
  ParseJSONSuccessfully h0 (lit "{""key"":[-32768],""key2"":[-32767]}") (fun h json_obj =>
  (HasKey h json_obj (lit "key") &&
  (Is IsArrayType h json_obj (lit "key") &&
  (call (GetArrayOfInt KInt16 h json_obj (lit "key")) (fun value value_errors =>
  negb value_errors &&
  (negb (is_nil value) &&
  (len_is value 1 &&
  (elem_is value 0 (Some (SInt KInt16 (-32768)))))))))) &&
  (HasKey h json_obj (lit "key2") &&
  (Is IsArrayType h json_obj (lit "key2") &&
  (call (GetArrayOfInt KInt16 h json_obj (lit "key2")) (fun value value_errors =>
  negb value_errors &&
  (negb (is_nil value) &&
  (len_is value 1 &&
  (elem_is value 0 (Some (SInt KInt16 (-32767))))))))))).
Lemma TestCanParseMultipleArraysContainingSingleInt16HighBoundary_passes h0 : TestCanParseMultipleArraysContainingSingleInt16HighBoundary h0 = true.
Proof. passes TestCanParseMultipleArraysContainingSingleInt16HighBoundary. Qed.

(** JSON_Array_Integer_signed_16_test.go:199-241 *)
Definition TestCanParseMultipleArraysContainingMultipleInt16HighBoundary (h0 : heap) : bool :=
  ParseJSONSuccessfully h0 (lit "{""key"":[-32768,-32767],""key2"":[-32766,-32765]}") (fun h json_obj =>
  (HasKey h json_obj (lit "key") &&
  (Is IsArrayType h json_obj (lit "key") &&
  (call (GetArrayOfInt KInt16 h json_obj (lit "key")) (fun value value_errors =>
  negb value_errors &&
  (negb (is_nil value) &&
  (len_is value 2 &&
  (elem_is value 0 (Some (SInt KInt16 (-32768))) &&
  (elem_is value 1 (Some (SInt KInt16 (-32767))))))))))) &&
  (HasKey h json_obj (lit "key2") &&
  (Is IsArrayType h json_obj (lit "key2") &&
  (call (GetArrayOfInt KInt16 h json_obj (lit "key2")) (fun value value_errors =>
  negb value_errors &&
  (negb (is_nil value) &&
  (len_is value 2 &&
  (elem_is value 0 (Some (SInt KInt16 (-32766))) &&
  (elem_is value 1 (Some (SInt KInt16 (-32765)))))))))))).
Lemma TestCanParseMultipleArraysContainingMultipleInt16HighBoundary_passes h0 : TestCanParseMultipleArraysContainingMultipleInt16HighBoundary h0 = true.
Proof. passes TestCanParseMultipleArraysContainingMultipleInt16HighBoundary. Qed.

(** JSON_Array_Integer_signed_16_test.go:243-265 *)
Definition TestCanParseArrayContainingMultipleInt16HighBoundary (h0 : heap) : bool :=
  ParseJSONSuccessfully h0 (lit "{""key"":[-32768,-32767]}") (fun h json_obj =>
  HasKey h json_obj (lit "key") &&
  (Is IsArrayType h json_obj (lit "key") &&
  (call (GetArrayOfInt KInt16 h json_obj (lit "key")) (fun value value_errors =>
  negb value_errors &&
  (negb (is_nil value) &&
  (len_is value 2 &&
  (elem_is value 0 (Some (SInt KInt16 (-32768))) &&
  (elem_is value 1 (Some (SInt KInt16 (-32767))))))))))).
Lemma TestCanParseArrayContainingMultipleInt16HighBoundary_passes h0 : TestCanParseArrayContainingMultipleInt16HighBoundary h0 = true.
Proof. passes TestCanParseArrayContainingMultipleInt16HighBoundary. Qed.

(** ** JSON_Array_Integer_signed_32_test.go *)

(** JSON_Array_Integer_signed_32_test.go:7-27 *)
Definition TestCanParseArrayContainingSingleInt32LowBoundary (h0 : heap) : bool :=
  ParseJSONSuccessfully h0 (lit "{""key"":[-32769]}") (fun h json_obj =>
  HasKey h json_obj (lit "key") &&
  (Is IsArrayType h json_obj (lit "key") &&
  (call (GetArrayOfInt KInt32 h json_obj (lit "key")) (fun value value_errors =>
  negb value_errors &&
  (negb (is_nil value) &&
  (len_is value 1 &&
  (elem_is value 0 (Some (SInt KInt32 (-32769)))))))))).
Lemma TestCanParseArrayContainingSingleInt32LowBoundary_passes h0 : TestCanParseArrayContainingSingleInt32LowBoundary h0 = true.
Proof. passes TestCanParseArrayContainingSingleInt32LowBoundary. Qed.

(** JSON_Array_Integer_signed_32_test.go:29-67 *)
Definition TestCanParseMultipleArraysContainingSingleInt32LowBoundary (h0 : heap) : bool :=
  ParseJSONSuccessfully h0 (lit "{""key"":[-32769],""key2"":[-32770]}") (fun h json_obj =>
  (HasKey h json_obj (lit "key") &&
  (Is IsArrayType h json_obj (lit "key") &&
  (call (GetArrayOfInt KInt32 h json_obj (lit "key")) (fun value value_errors =>
  negb value_errors &&
  (negb (is_nil value) &&
  (len_is value 1 &&
  (elem_is value 0 (Some (SInt KInt32 (-32769)))))))))) &&
  (HasKey h json_obj (lit "key2") &&
  (Is IsArrayType h json_obj (lit "key2") &&
  (call (GetArrayOfInt KInt32 h json_obj (lit "key2")) (fun value value_errors =>
  negb value_errors &&
  (negb (is_nil value) &&
  (len_is value 1 &&
  (elem_is value 0 (Some (SInt KInt32 (-32770))))))))))).
Lemma TestCanParseMultipleArraysContainingSingleInt32LowBoundary_passes h0 : TestCanParseMultipleArraysContainingSingleInt32LowBoundary h0 = true.
Proof. passes TestCanParseMultipleArraysContainingSingleInt32LowBoundary. Qed.

(** JSON_Array_Integer_signed_32_test.go:69-111 *)
Definition TestCanParseMultipleArraysContainingMultipleInt32LowBoundary (h0 : heap) : bool :=
  ParseJSONSuccessfully h0 (lit "{""key"":[-32769,-32770],""key2"":[-32771,-32772]}") (fun h json_obj =>
  (HasKey h json_obj (lit "key") &&
  (Is IsArrayType h json_obj (lit "key") &&
  (call (GetArrayOfInt KInt32 h json_obj (lit "key")) (fun value value_errors =>
  negb value_errors &&
  (negb (is_nil value) &&
  (len_is value 2 &&
  (elem_is value 0 (Some (SInt KInt32 (-32769))) &&
  (elem_is value 1 (Some (SInt KInt32 (-32770))))))))))) &&
  (HasKey h json_obj (lit "key2") &&
  (Is IsArrayType h json_obj (lit "key2") &&
  (call (GetArrayOfInt KInt32 h json_obj (lit "key2")) (fun value value_errors =>
  negb value_errors &&
  (negb (is_nil value) &&
  (len_is value 2 &&
  (elem_is value 0 (Some (SInt KInt32 (-32771))) &&
  (elem_is value 1 (Some (SInt KInt32 (-32772)))))))))))).
Lemma TestCanParseMultipleArraysContainingMultipleInt32LowBoundary_passes h0 : TestCanParseMultipleArraysContainingMultipleInt32LowBoundary h0 = true.
Proof. passes TestCanParseMultipleArraysContainingMultipleInt32LowBoundary. Qed.

(** JSON_Array_Integer_signed_32_test.go:113-135 *)
Definition TestCanParseArrayContainingMultipleInt32LowBoundary (h0 : heap) : bool :=
  ParseJSONSuccessfully h0 (lit "{""key"":[-32769,-32770]}") (fun h json_obj =>
  HasKey h json_obj (lit "key") &&
  (Is IsArrayType h json_obj (lit "key") &&
  (call (GetArrayOfInt KInt32 h json_obj (lit "key")) (fun value value_errors =>
  negb value_errors &&
  (negb (is_nil value) &&
  (len_is value 2 &&
  (elem_is value 0 (Some (SInt KInt32 (-32769))) &&
  (elem_is value 1 (Some (SInt KInt32 (-32770))))))))))).
Lemma TestCanParseArrayContainingMultipleInt32LowBoundary_passes h0 : TestCanParseArrayContainingMultipleInt32LowBoundary h0 = true.
Proof. passes TestCanParseArrayContainingMultipleInt32LowBoundary. Qed.

(** JSON_Array_Integer_signed_32_test.go:137-157 *)
Definition TestCanParseArrayContainingSingleInt32HighBoundary (h0 : heap) : bool :=
  ParseJSONSuccessfully h0 (lit "{""key"":[-2147483648]}") (fun h json_obj =>
  HasKey h json_obj (lit "key") &&
  (Is IsArrayType h json_obj (lit "key") &&
  (call (GetArrayOfInt KInt32 h json_obj (lit "key")) (fun value value_errors =>
  negb value_errors &&
  (negb (is_nil value) &&
  (len_is value 1 &&
  (elem_is value 0 (Some (SInt KInt32 (-2147483648)))))))))).
Lemma TestCanParseArrayContainingSingleInt32HighBoundary_passes h0 : TestCanParseArrayContainingSingleInt32HighBoundary h0 = true.
Proof. passes TestCanParseArrayContainingSingleInt32HighBoundary. Qed.

(** JSON_Array_Integer_signed_32_test.go:159-197 *)
Definition TestCanParseMultipleArraysContainingSingleInt32HighBoundary (h0 : heap) : bool :=
  ParseJSONSuccessfully h0 (lit "{""key"":[-2147483648],""key2"":[-2147483647]}") (fun h json_obj =>
  (HasKey h json_obj (lit "key") &&
  (Is IsArrayType h json_obj (lit "key") &&
  (call (GetArrayOfInt KInt32 h json_obj (lit "key")) (fun value value_errors =>
  negb value_errors &&
  (negb (is_nil value) &&
  (len_is value 1 &&
  (elem_is value 0 (Some (SInt KInt32 (-2147483648)))))))))) &&
  (HasKey h json_obj (lit "key2") &&
  (Is IsArrayType h json_obj (lit "key2") &&
  (call (GetArrayOfInt KInt32 h json_obj (lit "key2")) (fun value value_errors =>
  negb value_errors &&
  (negb (is_nil value) &&
  (len_is value 1 &&
  (elem_is value 0 (Some (SInt KInt32 (-2147483647))))))))))).
Lemma TestCanParseMultipleArraysContainingSingleInt32HighBoundary_passes h0 : TestCanParseMultipleArraysContainingSingleInt32HighBoundary h0 = true.
Proof. passes TestCanParseMultipleArraysContainingSingleInt32HighBoundary. Qed.

(** JSON_Array_Integer_signed_32_test.go:199-241 *)
Definition TestCanParseMultipleArraysContainingMultipleInt32HighBoundary (h0 : heap) : bool :=
  ParseJSONSuccessfully h0 (lit "{""key"":[-2147483648,-2147483647],""key2"":[-2147483646,-2147483645]}") (fun h json_obj =>
  (HasKey h json_obj (lit "key") &&
  (Is IsArrayType h json_obj (lit "key") &&
  (call (GetArrayOfInt KInt32 h json_obj (lit "key")) (fun value value_errors =>
  negb value_errors &&
  (negb (is_nil value) &&
  (len_is value 2 &&
  (elem_is value 0 (Some (SInt KInt32 (-2147483648))) &&
  (elem_is value 1 (Some (SInt KInt32 (-2147483647))))))))))) &&
  (HasKey h json_obj (lit "key2") &&
  (Is IsArrayType h json_obj (lit "key2") &&
  (call (GetArrayOfInt KInt32 h json_obj (lit "key2")) (fun value value_errors =>
  negb value_errors &&
  (negb (is_nil value) &&
  (len_is value 2 &&
  (elem_is value 0 (Some (SInt KInt32 (-2147483646))) &&
  (elem_is value 1 (Some (SInt KInt32 (-2147483645)))))))))))).
Lemma TestCanParseMultipleArraysContainingMultipleInt32HighBoundary_passes h0 : TestCanParseMultipleArraysContainingMultipleInt32HighBoundary h0 = true.
Proof. passes TestCanParseMultipleArraysContainingMultipleInt32HighBoundary. Qed.

(** JSON_Array_Integer_signed_32_test.go:243-265 *)
Definition TestCanParseArrayContainingMultipleInt32HighBoundary (h0 : heap) : bool :=
  ParseJSONSuccessfully h0 (lit "{""key"":[-2147483648,-2147483647]}") (fun h json_obj =>
  HasKey h json_obj (lit "key") &&
  (Is IsArrayType h json_obj (lit "key") &&
  (call (GetArrayOfInt KInt32 h json_obj (lit "key")) (fun value value_errors =>
  negb value_errors &&
  (negb (is_nil value) &&
  (len_is value 2 &&
  (elem_is value 0 (Some (SInt KInt32 (-2147483648))) &&
  (elem_is value 1 (Some (SInt KInt32 (-2147483647))))))))))).
Lemma TestCanParseArrayContainingMultipleInt32HighBoundary_passes h0 : TestCanParseArrayContainingMultipleInt32HighBoundary h0 = true.
Proof. passes TestCanParseArrayContainingMultipleInt32HighBoundary. Qed.

(** ** JSON_Array_Integer_signed_64_test.go *)

(** JSON_Array_Integer_signed_64_test.go:7-27 *)
Definition TestCanParseArrayContainingSingleInt64LowBoundary (h0 : heap) : bool :=
  ParseJSONSuccessfully h0 (lit "{""key"":[-2147483649]}") (fun h json_obj =>
  HasKey h json_obj (lit "key") &&
  (Is IsArrayType h json_obj (lit "key") &&
  (call (GetArrayOfInt KInt64 h json_obj (lit "key")) (fun value value_errors =>
  negb value_errors &&
  (negb (is_nil value) &&
  (len_is value 1 &&
  (elem_is value 0 (Some (SInt KInt64 (-2147483649)))))))))).
Lemma TestCanParseArrayContainingSingleInt64LowBoundary_passes h0 : TestCanParseArrayContainingSingleInt64LowBoundary h0 = true.
Proof. passes TestCanParseArrayContainingSingleInt64LowBoundary. Qed.

(** JSON_Array_Integer_signed_64_test.go:29-67 *)
Definition TestCanParseMultipleArraysContainingSingleInt64LowBoundary (h0 : heap) : bool :=
  ParseJSONSuccessfully h0 (lit "{""key"":[-2147483649],""key2"":[-2147483650]}") (fun h json_obj =>
  (HasKey h json_obj (lit "key") &&
  (Is IsArrayType h json_obj (lit "key") &&
  (call (GetArrayOfInt KInt64 h json_obj (lit "key")) (fun value value_errors =>
  negb value_errors &&
  (negb (is_nil value) &&
  (len_is value 1 &&
  (elem_is value 0 (Some (SInt KInt64 (-2147483649)))))))))) &&
  (HasKey h json_obj (lit "key2") &&
  (Is IsArrayType h json_obj (lit "key2") &&
  (call (GetArrayOfInt KInt64 h json_obj (lit "key2")) (fun value value_errors =>
  negb value_errors &&
  (negb (is_nil value) &&
  (len_is value 1 &&
  (elem_is value 0 (Some (SInt KInt64 (-2147483650))))))))))).
Lemma TestCanParseMultipleArraysContainingSingleInt64LowBoundary_passes h0 : TestCanParseMultipleArraysContainingSingleInt64LowBoundary h0 = true.
Proof. passes TestCanParseMultipleArraysContainingSingleInt64LowBoundary. Qed.

(** JSON_Array_Integer_signed_64_test.go:69-111 *)
Definition TestCanParseMultipleArraysContainingMultipleInt64LowBoundary (h0 : heap) : bool :=
  ParseJSONSuccessfully h0 (lit "{""key"":[-2147483649,-2147483650],""key2"":[-2147483651,-2147483652]}") (fun h json_obj =>
  (HasKey h json_obj (lit "key") &&
  (Is IsArrayType h json_obj (lit "key") &&
  (call (GetArrayOfInt KInt64 h json_obj (lit "key")) (fun value value_errors =>
  negb value_errors &&
  (negb (is_nil value) &&
  (len_is value 2 &&
  (elem_is value 0 (Some (SInt KInt64 (-2147483649))) &&
  (elem_is value 1 (Some (SInt KInt64 (-2147483650))))))))))) &&
  (HasKey h json_obj (lit "key2") &&
  (Is IsArrayType h json_obj (lit "key2") &&
  (call (GetArrayOfInt KInt64 h json_obj (lit "key2")) (fun value value_errors =>
  negb value_errors &&
  (negb (is_nil value) &&
  (len_is value 2 &&
  (elem_is value 0 (Some (SInt KInt64 (-2147483651))) &&
  (elem_is value 1 (Some (SInt KInt64 (-2147483652)))))))))))).
Lemma TestCanParseMultipleArraysContainingMultipleInt64LowBoundary_passes h0 : TestCanParseMultipleArraysContainingMultipleInt64LowBoundary h0 = true.
Proof. passes TestCanParseMultipleArraysContainingMultipleInt64LowBoundary. Qed.

(** JSON_Array_Integer_signed_64_test.go:113-135 *)
Definition TestCanParseArrayContainingMultipleInt64LowBoundary (h0 : heap) : bool :=
  ParseJSONSuccessfully h0 (lit "{""key"":[-2147483649,-2147483650]}") (fun h json_obj =>
  HasKey h json_obj (lit "key") &&
  (Is IsArrayType h json_obj (lit "key") &&
  (call (GetArrayOfInt KInt64 h json_obj (lit "key")) (fun value value_errors =>
  negb value_errors &&
  (negb (is_nil value) &&
  (len_is value 2 &&
  (elem_is value 0 (Some (SInt KInt64 (-2147483649))) &&
  (elem_is value 1 (Some (SInt KInt64 (-2147483650))))))))))).
Lemma TestCanParseArrayContainingMultipleInt64LowBoundary_passes h0 : TestCanParseArrayContainingMultipleInt64LowBoundary h0 = true.
Proof. passes TestCanParseArrayContainingMultipleInt64LowBoundary. Qed.

(** JSON_Array_Integer_signed_64_test.go:137-157 *)
Definition TestCanParseArrayContainingSingleInt64HighBoundary (h0 : heap) : bool :=
  ParseJSONSuccessfully h0 (lit "{""key"":[-9223372036854775808]}") (fun h json_obj =>
  HasKey h json_obj (lit "key") &&
  (Is IsArrayType h json_obj (lit "key") &&
  (call (GetArrayOfInt KInt64 h json_obj (lit "key")) (fun value value_errors =>
  negb value_errors &&
  (negb (is_nil value) &&
  (len_is value 1 &&
  (elem_is value 0 (Some (SInt KInt64 (-9223372036854775808)))))))))).
Lemma TestCanParseArrayContainingSingleInt64HighBoundary_passes h0 : TestCanParseArrayContainingSingleInt64HighBoundary h0 = true.
Proof. passes TestCanParseArrayContainingSingleInt64HighBoundary. Qed.

(** JSON_Array_Integer_signed_64_test.go:159-197 *)
Definition TestCanParseMultipleArraysContainingSingleInt64HighBoundary (h0 : heap) : bool :=
  ParseJSONSuccessfully h0 (lit "{""key"":[-9223372036854775808],""key2"":[-9223372036854775807]}") (fun h json_obj =>
  (HasKey h json_obj (lit "key") &&
  (Is IsArrayType h json_obj (lit "key") &&
  (call (GetArrayOfInt KInt64 h json_obj (lit "key")) (fun value value_errors =>
  negb value_errors &&
  (negb (is_nil value) &&
  (len_is value 1 &&
  (elem_is value 0 (Some (SInt KInt64 (-9223372036854775808)))))))))) &&
  (HasKey h json_obj (lit "key2") &&
  (Is IsArrayType h json_obj (lit "key2") &&
  (call (GetArrayOfInt KInt64 h json_obj (lit "key2")) (fun value value_errors =>
  negb value_errors &&
  (negb (is_nil value) &&
  (len_is value 1 &&
  (elem_is value 0 (Some (SInt KInt64 (-9223372036854775807))))))))))).
Lemma TestCanParseMultipleArraysContainingSingleInt64HighBoundary_passes h0 : TestCanParseMultipleArraysContainingSingleInt64HighBoundary h0 = true.
Proof. passes TestCanParseMultipleArraysContainingSingleInt64HighBoundary. Qed.

(** JSON_Array_Integer_signed_64_test.go:199-241 *)
Definition TestCanParseMultipleArraysContainingMultipleInt64HighBoundary (h0 : heap) : bool :=
  ParseJSONSuccessfully h0 (lit "{""key"":[-9223372036854775808,-9223372036854775807],""key2"":[-9223372036854775806,-9223372036854775805]}") (fun h json_obj =>
  (HasKey h json_obj (lit "key") &&
  (Is IsArrayType h json_obj (lit "key") &&
  (call (GetArrayOfInt KInt64 h json_obj (lit "key")) (fun value value_errors =>
  negb value_errors &&
  (negb (is_nil value) &&
  (len_is value 2 &&
  (elem_is value 0 (Some (SInt KInt64 (-9223372036854775808))) &&
  (elem_is value 1 (Some (SInt KInt64 (-9223372036854775807))))))))))) &&
  (HasKey h json_obj (lit "key2") &&
  (Is IsArrayType h json_obj (lit "key2") &&
  (call (GetArrayOfInt KInt64 h json_obj (lit "key2")) (fun value value_errors =>
  negb value_errors &&
  (negb (is_nil value) &&
  (len_is value 2 &&
  (elem_is value 0 (Some (SInt KInt64 (-9223372036854775806))) &&
  (elem_is value 1 (Some (SInt KInt64 (-9223372036854775805)))))))))))).
Lemma TestCanParseMultipleArraysContainingMultipleInt64HighBoundary_passes h0 : TestCanParseMultipleArraysContainingMultipleInt64HighBoundary h0 = true.
Proof. passes TestCanParseMultipleArraysContainingMultipleInt64HighBoundary. Qed.

(** JSON_Array_Integer_signed_64_test.go:243-265 *)
Definition TestCanParseArrayContainingMultipleInt64HighBoundaryh (h0 : heap) : bool :=
  ParseJSONSuccessfully h0 (lit "{""key"":[-9223372036854775808,-9223372036854775807]}") (fun h json_obj =>
  HasKey h json_obj (lit "key") &&
  (Is IsArrayType h json_obj (lit "key") &&
  (call (GetArrayOfInt KInt64 h json_obj (lit "key")) (fun value value_errors =>
  negb value_errors &&
  (negb (is_nil value) &&
  (len_is value 2 &&
  (elem_is value 0 (Some (SInt KInt64 (-9223372036854775808))) &&
  (elem_is value 1 (Some (SInt KInt64 (-9223372036854775807))))))))))).
Lemma TestCanParseArrayContainingMultipleInt64HighBoundaryh_passes h0 : TestCanParseArrayContainingMultipleInt64HighBoundaryh h0 = true.
Proof. passes TestCanParseArrayContainingMultipleInt64HighBoundaryh. Qed.

(** ** JSON_Array_Integer_unsigned_08_test.go *)

(** JSON_Array_Integer_unsigned_08_test.go:7-27 *)
Definition TestCanParseArrayContainingSingleUInt8LowBoundary (h0 : heap) : bool :=
  ParseJSONSuccessfully h0 (lit "{""key"":[0]}") (fun h json_obj =>
  HasKey h json_obj (lit "key") &&
  (Is IsArrayType h json_obj (lit "key") &&
  (call (GetArrayOfInt KUInt8 h json_obj (lit "key")) (fun value value_errors =>
  negb value_errors &&
  (negb (is_nil value) &&
  (len_is value 1 &&
  (elem_is value 0 (Some (SInt KUInt8 (0)))))))))).
Lemma TestCanParseArrayContainingSingleUInt8LowBoundary_passes h0 : TestCanParseArrayContainingSingleUInt8LowBoundary h0 = true.
Proof. passes TestCanParseArrayContainingSingleUInt8LowBoundary. Qed.

(** JSON_Array_Integer_unsigned_08_test.go:29-67 *)
Definition TestCanParseMultipleArraysContainingSingleUInt8LowBoundary (h0 : heap) : bool :=
  ParseJSONSuccessfully h0 (lit "{""key"":[0],""key2"":[1]}") (fun h json_obj =>
  (HasKey h json_obj (lit "key") &&
  (Is IsArrayType h json_obj (lit "key") &&
  (call (GetArrayOfInt KUInt8 h json_obj (lit "key")) (fun value value_errors =>
  negb value_errors &&
  (negb (is_nil value) &&
  (len_is value 1 &&
  (elem_is value 0 (Some (SInt KUInt8 (0)))))))))) &&
  (HasKey h json_obj (lit "key2") &&
  (Is IsArrayType h json_obj (lit "key2") &&
  (call (GetArrayOfInt KUInt8 h json_obj (lit "key2")) (fun value value_errors =>
  negb value_errors &&
  (negb (is_nil value) &&
  (len_is value 1 &&
  (elem_is value 0 (Some (SInt KUInt8 (1))))))))))).
Lemma TestCanParseMultipleArraysContainingSingleUInt8LowBoundary_passes h0 : TestCanParseMultipleArraysContainingSingleUInt8LowBoundary h0 = true.
Proof. passes TestCanParseMultipleArraysContainingSingleUInt8LowBoundary. Qed.

(** JSON_Array_Integer_unsigned_08_test.go:69-111 *)
Definition TestCanParseMultipleArraysContainingMultipleUInt8LowBoundary (h0 : heap) : bool :=
  ParseJSONSuccessfully h0 (lit "{""key"":[0,1],""key2"":[2,3]}") (fun h json_obj =>
  (HasKey h json_obj (lit "key") &&
  (Is IsArrayType h json_obj (lit "key") &&
  (call (GetArrayOfInt KUInt8 h json_obj (lit "key")) (fun value value_errors =>
  negb value_errors &&
  (negb (is_nil value) &&
  (len_is value 2 &&
  (elem_is value 0 (Some (SInt KUInt8 (0))) &&
  (elem_is value 1 (Some (SInt KUInt8 (1))))))))))) &&
  (HasKey h json_obj (lit "key2") &&
  (Is IsArrayType h json_obj (lit "key2") &&
  (call (GetArrayOfInt KUInt8 h json_obj (lit "key2")) (fun value value_errors =>
  negb value_errors &&
  (negb (is_nil value) &&
  (len_is value 2 &&
  (elem_is value 0 (Some (SInt KUInt8 (2))) &&
  (elem_is value 1 (Some (SInt KUInt8 (3)))))))))))).
Lemma TestCanParseMultipleArraysContainingMultipleUInt8LowBoundary_passes h0 : TestCanParseMultipleArraysContainingMultipleUInt8LowBoundary h0 = true.
Proof. passes TestCanParseMultipleArraysContainingMultipleUInt8LowBoundary. Qed.

(** JSON_Array_Integer_unsigned_08_test.go:113-135 *)
Definition TestCanParseArrayContainingMultipleUInt8LowBoundary (h0 : heap) : bool :=
  ParseJSONSuccessfully h0 (lit "{""key"":[0,1]}") (fun h json_obj =>
  HasKey h json_obj (lit "key") &&
  (Is IsArrayType h json_obj (lit "key") &&
  (call (GetArrayOfInt KUInt8 h json_obj (lit "key")) (fun value value_errors =>
  negb value_errors &&
  (negb (is_nil value) &&
  (len_is value 2 &&
  (elem_is value 0 (Some (SInt KUInt8 (0))) &&
  (elem_is value 1 (Some (SInt KUInt8 (1))))))))))).
Lemma TestCanParseArrayContainingMultipleUInt8LowBoundary_passes h0 : TestCanParseArrayContainingMultipleUInt8LowBoundary h0 = true.
Proof. passes TestCanParseArrayContainingMultipleUInt8LowBoundary. Qed.

(** JSON_Array_Integer_unsigned_08_test.go:137-157 *)
Definition TestCanParseArrayContainingSingleUInt8HighBoundary (h0 : heap) : bool :=
  ParseJSONSuccessfully h0 (lit "{""key"":[255]}") (fun h json_obj =>
  HasKey h json_obj (lit "key") &&
  (Is IsArrayType h json_obj (lit "key") &&
  (call (GetArrayOfInt KUInt8 h json_obj (lit "key")) (fun value value_errors =>
  negb value_errors &&
  (negb (is_nil value) &&
  (len_is value 1 &&
  (elem_is value 0 (Some (SInt KUInt8 (255)))))))))).
Lemma TestCanParseArrayContainingSingleUInt8HighBoundary_passes h0 : TestCanParseArrayContainingSingleUInt8HighBoundary h0 = true.
Proof. passes TestCanParseArrayContainingSingleUInt8HighBoundary. Qed.

(** JSON_Array_Integer_unsigned_08_test.go:159-197 *)
Definition TestCanParseMultipleArraysContainingSingleUInt8HighBoundary (h0 : heap) : bool :=
  ParseJSONSuccessfully h0 (lit "{""key"":[254],""key2"":[255]}") (fun h json_obj =>
  (HasKey h json_obj (lit "key") &&
  (Is IsArrayType h json_obj (lit "key") &&
  (call (GetArrayOfInt KUInt8 h json_obj (lit "key")) (fun value value_errors =>
  negb value_errors &&
  (negb (is_nil value) &&
  (len_is value 1 &&
  (elem_is value 0 (Some (SInt KUInt8 (254)))))))))) &&
  (HasKey h json_obj (lit "key2") &&
  (Is IsArrayType h json_obj (lit "key2") &&
  (call (GetArrayOfInt KUInt8 h json_obj (lit "key2")) (fun value value_errors =>
  negb value_errors &&
  (negb (is_nil value) &&
  (len_is value 1 &&
  (elem_is value 0 (Some (SInt KUInt8 (255))))))))))).
Lemma TestCanParseMultipleArraysContainingSingleUInt8HighBoundary_passes h0 : TestCanParseMultipleArraysContainingSingleUInt8HighBoundary h0 = true.
Proof. passes TestCanParseMultipleArraysContainingSingleUInt8HighBoundary. Qed.

(** JSON_Array_Integer_unsigned_08_test.go:199-241 *)
Definition TestCanParseMultipleArraysContainingMultipleUInt8HighBoundary (h0 : heap) : bool :=
  ParseJSONSuccessfully h0 (lit "{""key"":[252,253],""key2"":[254,255]}") (fun h json_obj =>
  (HasKey h json_obj (lit "key") &&
  (Is IsArrayType h json_obj (lit "key") &&
  (call (GetArrayOfInt KUInt8 h json_obj (lit "key")) (fun value value_errors =>
  negb value_errors &&
  (negb (is_nil value) &&
  (len_is value 2 &&
  (elem_is value 0 (Some (SInt KUInt8 (252))) &&
  (elem_is value 1 (Some (SInt KUInt8 (253))))))))))) &&
  (HasKey h json_obj (lit "key2") &&
  (Is IsArrayType h json_obj (lit "key2") &&
  (call (GetArrayOfInt KUInt8 h json_obj (lit "key2")) (fun value value_errors =>
  negb value_errors &&
  (negb (is_nil value) &&
  (len_is value 2 &&
  (elem_is value 0 (Some (SInt KUInt8 (254))) &&
  (elem_is value 1 (Some (SInt KUInt8 (255)))))))))))).
Lemma TestCanParseMultipleArraysContainingMultipleUInt8HighBoundary_passes h0 : TestCanParseMultipleArraysContainingMultipleUInt8HighBoundary h0 = true.
Proof. passes TestCanParseMultipleArraysContainingMultipleUInt8HighBoundary. Qed.

(** JSON_Array_Integer_unsigned_08_test.go:243-265 *)
Definition TestCanParseArrayContainingMultipleUInt8HighBoundary (h0 : heap) : bool :=
  ParseJSONSuccessfully h0 (lit "{""key"":[254,255]}") (fun h json_obj =>
  HasKey h json_obj (lit "key") &&
  (Is IsArrayType h json_obj (lit "key") &&
  (call (GetArrayOfInt KUInt8 h json_obj (lit "key")) (fun value value_errors =>
  negb value_errors &&
  (negb (is_nil value) &&
  (len_is value 2 &&
  (elem_is value 0 (Some (SInt KUInt8 (254))) &&
  (elem_is value 1 (Some (SInt KUInt8 (255))))))))))).
Lemma TestCanParseArrayContainingMultipleUInt8HighBoundary_passes h0 : TestCanParseArrayContainingMultipleUInt8HighBoundary h0 = true.
Proof. passes TestCanParseArrayContainingMultipleUInt8HighBoundary. Qed.

(** ** JSON_Array_Integer_unsigned_16_test.go *)

(** JSON_Array_Integer_unsigned_16_test.go:7-27 *)
Definition TestCanParseArrayContainingSingleUInt16LowBoundary (h0 : heap) : bool :=
  ParseJSONSuccessfully h0 (lit "{""key"":[256]}") (fun h json_obj =>
  HasKey h json_obj (lit "key") &&
  (Is IsArrayType h json_obj (lit "key") &&
  (call (GetArrayOfInt KUInt16 h json_obj (lit "key")) (fun value value_errors =>
  negb value_errors &&
  (negb (is_nil value) &&
  (len_is value 1 &&
  (elem_is value 0 (Some (SInt KUInt16 (256)))))))))).
Lemma TestCanParseArrayContainingSingleUInt16LowBoundary_passes h0 : TestCanParseArrayContainingSingleUInt16LowBoundary h0 = true.
Proof. passes TestCanParseArrayContainingSingleUInt16LowBoundary. Qed.

(** JSON_Array_Integer_unsigned_16_test.go:29-67 *)
Definition TestCanParseMultipleArraysContainingSingleUInt16LowBoundary (h0 : heap) : bool :=
  ParseJSONSuccessfully h0 (lit "{""key"":[256],""key2"":[257]}") (fun h json_obj =>
  (HasKey h json_obj (lit "key") &&
  (Is IsArrayType h json_obj (lit "key") &&
  (call (GetArrayOfInt KUInt16 h json_obj (lit "key")) (fun value value_errors =>
  negb value_errors &&
  (negb (is_nil value) &&
  (len_is value 1 &&
  (elem_is value 0 (Some (SInt KUInt16 (256)))))))))) &&
  (HasKey h json_obj (lit "key2") &&
  (Is IsArrayType h json_obj (lit "key2") &&
  (call (GetArrayOfInt KUInt16 h json_obj (lit "key2")) (fun value value_errors =>
  negb value_errors &&
  (negb (is_nil value) &&
  (len_is value 1 &&
  (elem_is value 0 (Some (SInt KUInt16 (257))))))))))).
Lemma TestCanParseMultipleArraysContainingSingleUInt16LowBoundary_passes h0 : TestCanParseMultipleArraysContainingSingleUInt16LowBoundary h0 = true.
Proof. passes TestCanParseMultipleArraysContainingSingleUInt16LowBoundary. Qed.

(** JSON_Array_Integer_unsigned_16_test.go:69-111 *)
Definition TestCanParseMultipleArraysContainingMultipleUInt16LowBoundary (h0 : heap) : bool :=
  ParseJSONSuccessfully h0 (lit "{""key"":[256,257],""key2"":[258,259]}") (fun h json_obj =>
  (HasKey h json_obj (lit "key") &&
  (Is IsArrayType h json_obj (lit "key") &&
  (call (GetArrayOfInt KUInt16 h json_obj (lit "key")) (fun value value_errors =>
  negb value_errors &&
  (negb (is_nil value) &&
  (len_is value 2 &&
  (elem_is value 0 (Some (SInt KUInt16 (256))) &&
  (elem_is value 1 (Some (SInt KUInt16 (257))))))))))) &&
  (HasKey h json_obj (lit "key2") &&
  (Is IsArrayType h json_obj (lit "key2") &&
  (call (GetArrayOfInt KUInt16 h json_obj (lit "key2")) (fun value value_errors =>
  negb value_errors &&
  (negb (is_nil value) &&
  (len_is value 2 &&
  (elem_is value 0 (Some (SInt KUInt16 (258))) &&
  (elem_is value 1 (Some (SInt KUInt16 (259)))))))))))).
Lemma TestCanParseMultipleArraysContainingMultipleUInt16LowBoundary_passes h0 : TestCanParseMultipleArraysContainingMultipleUInt16LowBoundary h0 = true.
Proof. passes TestCanParseMultipleArraysContainingMultipleUInt16LowBoundary. Qed.

(** JSON_Array_Integer_unsigned_16_test.go:113-135 *)
Definition TestCanParseArrayContainingMultipleUInt16LowBoundary (h0 : heap) : bool :=
  ParseJSONSuccessfully h0 (lit "{""key"":[256,257]}") (fun h json_obj =>
  HasKey h json_obj (lit "key") &&
  (Is IsArrayType h json_obj (lit "key") &&
  (call (GetArrayOfInt KUInt16 h json_obj (lit "key")) (fun value value_errors =>
  negb value_errors &&
  (negb (is_nil value) &&
  (len_is value 2 &&
  (elem_is value 0 (Some (SInt KUInt16 (256))) &&
  (elem_is value 1 (Some (SInt KUInt16 (257))))))))))).
Lemma TestCanParseArrayContainingMultipleUInt16LowBoundary_passes h0 : TestCanParseArrayContainingMultipleUInt16LowBoundary h0 = true.
Proof. passes TestCanParseArrayContainingMultipleUInt16LowBoundary. Qed.

(** JSON_Array_Integer_unsigned_16_test.go:137-157 *)
Definition TestCanParseArrayContainingSingleUInt16HighBoundary (h0 : heap) : bool :=
  ParseJSONSuccessfully h0 (lit "{""key"":[65535]}") (fun h json_obj =>
  HasKey h json_obj (lit "key") &&
  (Is IsArrayType h json_obj (lit "key") &&
  (call (GetArrayOfInt KUInt16 h json_obj (lit "key")) (fun value value_errors =>
  negb value_errors &&
  (negb (is_nil value) &&
  (len_is value 1 &&
  (elem_is value 0 (Some (SInt KUInt16 (65535)))))))))).
Lemma TestCanParseArrayContainingSingleUInt16HighBoundary_passes h0 : TestCanParseArrayContainingSingleUInt16HighBoundary h0 = true.
Proof. passes TestCanParseArrayContainingSingleUInt16HighBoundary. Qed.

(** JSON_Array_Integer_unsigned_16_test.go:159-197 *)
Definition TestCanParseMultipleArraysContainingSingleUInt16HighBoundary (h0 : heap) : bool :=
  ParseJSONSuccessfully h0 (lit "{""key"":[65534],""key2"":[65535]}") (fun h json_obj =>
  (HasKey h json_obj (lit "key") &&
  (Is IsArrayType h json_obj (lit "key") &&
  (call (GetArrayOfInt KUInt16 h json_obj (lit "key")) (fun value value_errors =>
  negb value_errors &&
  (negb (is_nil value) &&
  (len_is value 1 &&
  (elem_is value 0 (Some (SInt KUInt16 (65534)))))))))) &&
  (HasKey h json_obj (lit "key2") &&
  (Is IsArrayType h json_obj (lit "key2") &&
  (call (GetArrayOfInt KUInt16 h json_obj (lit "key2")) (fun value value_errors =>
  negb value_errors &&
  (negb (is_nil value) &&
  (len_is value 1 &&
  (elem_is value 0 (Some (SInt KUInt16 (65535))))))))))).
Lemma TestCanParseMultipleArraysContainingSingleUInt16HighBoundary_passes h0 : TestCanParseMultipleArraysContainingSingleUInt16HighBoundary h0 = true.
Proof. passes TestCanParseMultipleArraysContainingSingleUInt16HighBoundary. Qed.

(** JSON_Array_Integer_unsigned_16_test.go:199-241 *)
Definition TestCanParseMultipleArraysContainingMultipleUInt16HighBoundary (h0 : heap) : bool :=
  ParseJSONSuccessfully h0 (lit "{""key"":[65532,65533],""key2"":[65534,65535]}") (fun h json_obj =>
  (HasKey h json_obj (lit "key") &&
  (Is IsArrayType h json_obj (lit "key") &&
  (call (GetArrayOfInt KUInt16 h json_obj (lit "key")) (fun value value_errors =>
  negb value_errors &&
  (negb (is_nil value) &&
  (len_is value 2 &&
  (elem_is value 0 (Some (SInt KUInt16 (65532))) &&
  (elem_is value 1 (Some (SInt KUInt16 (65533))))))))))) &&
  (HasKey h json_obj (lit "key2") &&
  (Is IsArrayType h json_obj (lit "key2") &&
  (call (GetArrayOfInt KUInt16 h json_obj (lit "key2")) (fun value value_errors =>
  negb value_errors &&
  (negb (is_nil value) &&
  (len_is value 2 &&
  (elem_is value 0 (Some (SInt KUInt16 (65534))) &&
  (elem_is value 1 (Some (SInt KUInt16 (65535)))))))))))).
Lemma TestCanParseMultipleArraysContainingMultipleUInt16HighBoundary_passes h0 : TestCanParseMultipleArraysContainingMultipleUInt16HighBoundary h0 = true.
Proof. passes TestCanParseMultipleArraysContainingMultipleUInt16HighBoundary. Qed.

(** JSON_Array_Integer_unsigned_16_test.go:243-265 *)
Definition TestCanParseArrayContainingMultipleUInt16HighBoundary (h0 : heap) : bool :=
  ParseJSONSuccessfully h0 (lit "{""key"":[65534,65535]}") (fun h json_obj =>
  HasKey h json_obj (lit "key") &&
  (Is IsArrayType h json_obj (lit "key") &&
  (call (GetArrayOfInt KUInt16 h json_obj (lit "key")) (fun value value_errors =>
  negb value_errors &&
  (negb (is_nil value) &&
  (len_is value 2 &&
  (elem_is value 0 (Some (SInt KUInt16 (65534))) &&
  (elem_is value 1 (Some (SInt KUInt16 (65535))))))))))).
Lemma TestCanParseArrayContainingMultipleUInt16HighBoundary_passes h0 : TestCanParseArrayContainingMultipleUInt16HighBoundary h0 = true.
Proof. passes TestCanParseArrayContainingMultipleUInt16HighBoundary. Qed.

(** ** JSON_Array_Integer_unsigned_32_test.go *)

(** JSON_Array_Integer_unsigned_32_test.go:7-27 *)
Definition TestCanParseArrayContainingSingleUInt32LowBoundary (h0 : heap) : bool :=
  ParseJSONSuccessfully h0 (lit "{""key"":[65536]}") (fun h json_obj =>
  HasKey h json_obj (lit "key") &&
  (Is IsArrayType h json_obj (lit "key") &&
  (call (GetArrayOfInt KUInt32 h json_obj (lit "key")) (fun value value_errors =>
  negb value_errors &&
  (negb (is_nil value) &&
  (len_is value 1 &&
  (elem_is value 0 (Some (SInt KUInt32 (65536)))))))))).
Lemma TestCanParseArrayContainingSingleUInt32LowBoundary_passes h0 : TestCanParseArrayContainingSingleUInt32LowBoundary h0 = true.
Proof. passes TestCanParseArrayContainingSingleUInt32LowBoundary. Qed.

(** JSON_Array_Integer_unsigned_32_test.go:29-67 *)
Definition TestCanParseMultipleArraysContainingSingleUInt32LowBoundary (h0 : heap) : bool :=
  ParseJSONSuccessfully h0 (lit "{""key"":[65536],""key2"":[65537]}") (fun h json_obj =>
  (HasKey h json_obj (lit "key") &&
  (Is IsArrayType h json_obj (lit "key") &&
  (call (GetArrayOfInt KUInt32 h json_obj (lit "key")) (fun value value_errors =>
  negb value_errors &&
  (negb (is_nil value) &&
  (len_is value 1 &&
  (elem_is value 0 (Some (SInt KUInt32 (65536)))))))))) &&
  (HasKey h json_obj (lit "key2") &&
  (Is IsArrayType h json_obj (lit "key2") &&
  (call (GetArrayOfInt KUInt32 h json_obj (lit "key2")) (fun value value_errors =>
  negb value_errors &&
  (negb (is_nil value) &&
  (len_is value 1 &&
  (elem_is value 0 (Some (SInt KUInt32 (65537))))))))))).
Lemma TestCanParseMultipleArraysContainingSingleUInt32LowBoundary_passes h0 : TestCanParseMultipleArraysContainingSingleUInt32LowBoundary h0 = true.
Proof. passes TestCanParseMultipleArraysContainingSingleUInt32LowBoundary. Qed.

(** JSON_Array_Integer_unsigned_32_test.go:69-111 *)
Definition TestCanParseMultipleArraysContainingMultipleUInt32LowBoundary (h0 : heap) : bool :=
  ParseJSONSuccessfully h0 (lit "{""key"":[65536,65537],""key2"":[65538,65539]}") (fun h json_obj =>
  (HasKey h json_obj (lit "key") &&
  (Is IsArrayType h json_obj (lit "key") &&
  (call (GetArrayOfInt KUInt32 h json_obj (lit "key")) (fun value value_errors =>
  negb value_errors &&
  (negb (is_nil value) &&
  (len_is value 2 &&
  (elem_is value 0 (Some (SInt KUInt32 (65536))) &&
  (elem_is value 1 (Some (SInt KUInt32 (65537))))))))))) &&
  (HasKey h json_obj (lit "key2") &&
  (Is IsArrayType h json_obj (lit "key2") &&
  (call (GetArrayOfInt KUInt32 h json_obj (lit "key2")) (fun value value_errors =>
  negb value_errors &&
  (negb (is_nil value) &&
  (len_is value 2 &&
  (elem_is value 0 (Some (SInt KUInt32 (65538))) &&
  (elem_is value 1 (Some (SInt KUInt32 (65539)))))))))))).
Lemma TestCanParseMultipleArraysContainingMultipleUInt32LowBoundary_passes h0 : TestCanParseMultipleArraysContainingMultipleUInt32LowBoundary h0 = true.
Proof. passes TestCanParseMultipleArraysContainingMultipleUInt32LowBoundary. Qed.

(** JSON_Array_Integer_unsigned_32_test.go:113-135 *)
Definition TestCanParseArrayContainingMultipleUInt32LowBoundary (h0 : heap) : bool :=
  ParseJSONSuccessfully h0 (lit "{""key"":[65536,65537]}") (fun h json_obj =>
  HasKey h json_obj (lit "key") &&
  (Is IsArrayType h json_obj (lit "key") &&
  (call (GetArrayOfInt KUInt32 h json_obj (lit "key")) (fun value value_errors =>
  negb value_errors &&
  (negb (is_nil value) &&
  (len_is value 2 &&
  (elem_is value 0 (Some (SInt KUInt32 (65536))) &&
  (elem_is value 1 (Some (SInt KUInt32 (65537))))))))))).
Lemma TestCanParseArrayContainingMultipleUInt32LowBoundary_passes h0 : TestCanParseArrayContainingMultipleUInt32LowBoundary h0 = true.
Proof. passes TestCanParseArrayContainingMultipleUInt32LowBoundary. Qed.

(** JSON_Array_Integer_unsigned_32_test.go:137-157 *)
Definition TestCanParseArrayContainingSingleUInt32HighBoundary (h0 : heap) : bool :=
  ParseJSONSuccessfully h0 (lit "{""key"":[4294967295]}") (fun h json_obj =>
  HasKey h json_obj (lit "key") &&
  (Is IsArrayType h json_obj (lit "key") &&
  (call (GetArrayOfInt KUInt32 h json_obj (lit "key")) (fun value value_errors =>
  negb value_errors &&
  (negb (is_nil value) &&
  (len_is value 1 &&
  (elem_is value 0 (Some (SInt KUInt32 (4294967295)))))))))).
Lemma TestCanParseArrayContainingSingleUInt32HighBoundary_passes h0 : TestCanParseArrayContainingSingleUInt32HighBoundary h0 = true.
Proof. passes TestCanParseArrayContainingSingleUInt32HighBoundary. Qed.

(** JSON_Array_Integer_unsigned_32_test.go:159-197 *)
Definition TestCanParseMultipleArraysContainingSingleUInt32HighBoundary (h0 : heap) : bool :=
  ParseJSONSuccessfully h0 (lit "{""key"":[4294967294],""key2"":[4294967295]}") (fun h json_obj =>
  (HasKey h json_obj (lit "key") &&
  (Is IsArrayType h json_obj (lit "key") &&
  (call (GetArrayOfInt KUInt32 h json_obj (lit "key")) (fun value value_errors =>
  negb value_errors &&
  (negb (is_nil value) &&
  (len_is value 1 &&
  (elem_is value 0 (Some (SInt KUInt32 (4294967294)))))))))) &&
  (HasKey h json_obj (lit "key2") &&
  (Is IsArrayType h json_obj (lit "key2") &&
  (call (GetArrayOfInt KUInt32 h json_obj (lit "key2")) (fun value value_errors =>
  negb value_errors &&
  (negb (is_nil value) &&
  (len_is value 1 &&
  (elem_is value 0 (Some (SInt KUInt32 (4294967295))))))))))).
Lemma TestCanParseMultipleArraysContainingSingleUInt32HighBoundary_passes h0 : TestCanParseMultipleArraysContainingSingleUInt32HighBoundary h0 = true.
Proof. passes TestCanParseMultipleArraysContainingSingleUInt32HighBoundary. Qed.

(** JSON_Array_Integer_unsigned_32_test.go:199-241 *)
Definition TestCanParseMultipleArraysContainingMultipleUInt32HighBoundary (h0 : heap) : bool :=
  ParseJSONSuccessfully h0 (lit "{""key"":[4294967292,4294967293],""key2"":[4294967294,4294967295]}") (fun h json_obj =>
  (HasKey h json_obj (lit "key") &&
  (Is IsArrayType h json_obj (lit "key") &&
  (call (GetArrayOfInt KUInt32 h json_obj (lit "key")) (fun value value_errors =>
  negb value_errors &&
  (negb (is_nil value) &&
  (len_is value 2 &&
  (elem_is value 0 (Some (SInt KUInt32 (4294967292))) &&
  (elem_is value 1 (Some (SInt KUInt32 (4294967293))))))))))) &&
  (HasKey h json_obj (lit "key2") &&
  (Is IsArrayType h json_obj (lit "key2") &&
  (call (GetArrayOfInt KUInt32 h json_obj (lit "key2")) (fun value value_errors =>
  negb value_errors &&
  (negb (is_nil value) &&
  (len_is value 2 &&
  (elem_is value 0 (Some (SInt KUInt32 (4294967294))) &&
  (elem_is value 1 (Some (SInt KUInt32 (4294967295)))))))))))).
Lemma TestCanParseMultipleArraysContainingMultipleUInt32HighBoundary_passes h0 : TestCanParseMultipleArraysContainingMultipleUInt32HighBoundary h0 = true.
Proof. passes TestCanParseMultipleArraysContainingMultipleUInt32HighBoundary. Qed.

(** JSON_Array_Integer_unsigned_32_test.go:243-265 *)
Definition TestCanParseArrayContainingMultipleUInt32HighBoundary (h0 : heap) : bool :=
  ParseJSONSuccessfully h0 (lit "{""key"":[4294967294,4294967295]}") (fun h json_obj =>
  HasKey h json_obj (lit "key") &&
  (Is IsArrayType h json_obj (lit "key") &&
  (call (GetArrayOfInt KUInt32 h json_obj (lit "key")) (fun value value_errors =>
  negb value_errors &&
  (negb (is_nil value) &&
  (len_is value 2 &&
  (elem_is value 0 (Some (SInt KUInt32 (4294967294))) &&
  (elem_is value 1 (Some (SInt KUInt32 (4294967295))))))))))).
Lemma TestCanParseArrayContainingMultipleUInt32HighBoundary_passes h0 : TestCanParseArrayContainingMultipleUInt32HighBoundary h0 = true.
Proof. passes TestCanParseArrayContainingMultipleUInt32HighBoundary. Qed.

(** ** JSON_Array_Integer_unsigned_64_test.go *)

(** JSON_Array_Integer_unsigned_64_test.go:7-27 *)
Definition TestCanParseArrayContainingSingleUInt64LowBoundary (h0 : heap) : bool :=
  ParseJSONSuccessfully h0 (lit "{""key"":[4294967296]}") (fun h json_obj =>
  HasKey h json_obj (lit "key") &&
  (Is IsArrayType h json_obj (lit "key") &&
  (call (GetArrayOfInt KUInt64 h json_obj (lit "key")) (fun value value_errors =>
  negb value_errors &&
  (negb (is_nil value) &&
  (len_is value 1 &&
  (elem_is value 0 (Some (SInt KUInt64 (4294967296)))))))))).
Lemma TestCanParseArrayContainingSingleUInt64LowBoundary_passes h0 : TestCanParseArrayContainingSingleUInt64LowBoundary h0 = true.
Proof. passes TestCanParseArrayContainingSingleUInt64LowBoundary. Qed.

(** JSON_Array_Integer_unsigned_64_test.go:29-67 *)
Definition TestCanParseMultipleArraysContainingSingleUInt64LowBoundary (h0 : heap) : bool :=
  ParseJSONSuccessfully h0 (lit "{""key"":[4294967296],""key2"":[4294967297]}") (fun h json_obj =>
  (HasKey h json_obj (lit "key") &&
  (Is IsArrayType h json_obj (lit "key") &&
  (call (GetArrayOfInt KUInt64 h json_obj (lit "key")) (fun value value_errors =>
  negb value_errors &&
  (negb (is_nil value) &&
  (len_is value 1 &&
  (elem_is value 0 (Some (SInt KUInt64 (4294967296)))))))))) &&
  (HasKey h json_obj (lit "key2") &&
  (Is IsArrayType h json_obj (lit "key2") &&
  (call (GetArrayOfInt KUInt64 h json_obj (lit "key2")) (fun value value_errors =>
  negb value_errors &&
  (negb (is_nil value) &&
  (len_is value 1 &&
  (elem_is value 0 (Some (SInt KUInt64 (4294967297))))))))))).
Lemma TestCanParseMultipleArraysContainingSingleUInt64LowBoundary_passes h0 : TestCanParseMultipleArraysContainingSingleUInt64LowBoundary h0 = true.
Proof. passes TestCanParseMultipleArraysContainingSingleUInt64LowBoundary. Qed.

(** JSON_Array_Integer_unsigned_64_test.go:69-111 *)
Definition TestCanParseMultipleArraysContainingMultipleUInt64LowBoundary (h0 : heap) : bool :=
  ParseJSONSuccessfully h0 (lit "{""key"":[4294967296,4294967297],""key2"":[4294967298,4294967299]}") (fun h json_obj =>
  (HasKey h json_obj (lit "key") &&
  (Is IsArrayType h json_obj (lit "key") &&
  (call (GetArrayOfInt KUInt64 h json_obj (lit "key")) (fun value value_errors =>
  negb value_errors &&
  (negb (is_nil value) &&
  (len_is value 2 &&
  (elem_is value 0 (Some (SInt KUInt64 (4294967296))) &&
  (elem_is value 1 (Some (SInt KUInt64 (4294967297))))))))))) &&
  (HasKey h json_obj (lit "key2") &&
  (Is IsArrayType h json_obj (lit "key2") &&
  (call (GetArrayOfInt KUInt64 h json_obj (lit "key2")) (fun value value_errors =>
  negb value_errors &&
  (negb (is_nil value) &&
  (len_is value 2 &&
  (elem_is value 0 (Some (SInt KUInt64 (4294967298))) &&
  (elem_is value 1 (Some (SInt KUInt64 (4294967299)))))))))))).
Lemma TestCanParseMultipleArraysContainingMultipleUInt64LowBoundary_passes h0 : TestCanParseMultipleArraysContainingMultipleUInt64LowBoundary h0 = true.
Proof. passes TestCanParseMultipleArraysContainingMultipleUInt64LowBoundary. Qed.

(** JSON_Array_Integer_unsigned_64_test.go:113-135 *)
Definition TestCanParseArrayContainingMultipleUInt64LowBoundary (h0 : heap) : bool :=
  ParseJSONSuccessfully h0 (lit "{""key"":[4294967296,4294967297]}") (fun h json_obj =>
  HasKey h json_obj (lit "key") &&
  (Is IsArrayType h json_obj (lit "key") &&
  (call (GetArrayOfInt KUInt64 h json_obj (lit "key")) (fun value value_errors =>
  negb value_errors &&
  (negb (is_nil value) &&
  (len_is value 2 &&
  (elem_is value 0 (Some (SInt KUInt64 (4294967296))) &&
  (elem_is value 1 (Some (SInt KUInt64 (4294967297))))))))))).
Lemma TestCanParseArrayContainingMultipleUInt64LowBoundary_passes h0 : TestCanParseArrayContainingMultipleUInt64LowBoundary h0 = true.
Proof. passes TestCanParseArrayContainingMultipleUInt64LowBoundary. Qed.

(** JSON_Array_Integer_unsigned_64_test.go:137-157 *)
Definition TestCanParseArrayContainingSingleUInt64HighBoundary (h0 : heap) : bool :=
  ParseJSONSuccessfully h0 (lit "{""key"":[18446744073709551615]}") (fun h json_obj =>
  HasKey h json_obj (lit "key") &&
  (Is IsArrayType h json_obj (lit "key") &&
  (call (GetArrayOfInt KUInt64 h json_obj (lit "key")) (fun value value_errors =>
  negb value_errors &&
  (negb (is_nil value) &&
  (len_is value 1 &&
  (elem_is value 0 (Some (SInt KUInt64 (18446744073709551615)))))))))).
Lemma TestCanParseArrayContainingSingleUInt64HighBoundary_passes h0 : TestCanParseArrayContainingSingleUInt64HighBoundary h0 = true.
Proof. passes TestCanParseArrayContainingSingleUInt64HighBoundary. Qed.

(** JSON_Array_Integer_unsigned_64_test.go:159-197 *)
Definition TestCanParseMultipleArraysContainingSingleUInt64HighBoundary (h0 : heap) : bool :=
  ParseJSONSuccessfully h0 (lit "{""key"":[18446744073709551614],""key2"":[18446744073709551615]}") (fun h json_obj =>
  (HasKey h json_obj (lit "key") &&
  (Is IsArrayType h json_obj (lit "key") &&
  (call (GetArrayOfInt KUInt64 h json_obj (lit "key")) (fun value value_errors =>
  negb value_errors &&
  (negb (is_nil value) &&
  (len_is value 1 &&
  (elem_is value 0 (Some (SInt KUInt64 (18446744073709551614)))))))))) &&
  (HasKey h json_obj (lit "key2") &&
  (Is IsArrayType h json_obj (lit "key2") &&
  (call (GetArrayOfInt KUInt64 h json_obj (lit "key2")) (fun value value_errors =>
  negb value_errors &&
  (negb (is_nil value) &&
  (len_is value 1 &&
  (elem_is value 0 (Some (SInt KUInt64 (18446744073709551615))))))))))).
Lemma TestCanParseMultipleArraysContainingSingleUInt64HighBoundary_passes h0 : TestCanParseMultipleArraysContainingSingleUInt64HighBoundary h0 = true.
Proof. passes TestCanParseMultipleArraysContainingSingleUInt64HighBoundary. Qed.

(** JSON_Array_Integer_unsigned_64_test.go:199-241 *)
Definition TestCanParseMultipleArraysContainingMultipleUInt64HighBoundary (h0 : heap) : bool :=
  ParseJSONSuccessfully h0 (lit "{""key"":[18446744073709551612,18446744073709551613],""key2"":[18446744073709551614,18446744073709551615]}") (fun h json_obj =>
  (HasKey h json_obj (lit "key") &&
  (Is IsArrayType h json_obj (lit "key") &&
  (call (GetArrayOfInt KUInt64 h json_obj (lit "key")) (fun value value_errors =>
  negb value_errors &&
  (negb (is_nil value) &&
  (len_is value 2 &&
  (elem_is value 0 (Some (SInt KUInt64 (18446744073709551612))) &&
  (elem_is value 1 (Some (SInt KUInt64 (18446744073709551613))))))))))) &&
  (HasKey h json_obj (lit "key2") &&
  (Is IsArrayType h json_obj (lit "key2") &&
  (call (GetArrayOfInt KUInt64 h json_obj (lit "key2")) (fun value value_errors =>
  negb value_errors &&
  (negb (is_nil value) &&
  (len_is value 2 &&
  (elem_is value 0 (Some (SInt KUInt64 (18446744073709551614))) &&
  (elem_is value 1 (Some (SInt KUInt64 (18446744073709551615)))))))))))).
Lemma TestCanParseMultipleArraysContainingMultipleUInt64HighBoundary_passes h0 : TestCanParseMultipleArraysContainingMultipleUInt64HighBoundary h0 = true.
Proof. passes TestCanParseMultipleArraysContainingMultipleUInt64HighBoundary. Qed.

(** JSON_Array_Integer_unsigned_64_test.go:243-265 *)
Definition TestCanParseArrayContainingMultipleUInt64HighBoundary (h0 : heap) : bool :=
  ParseJSONSuccessfully h0 (lit "{""key"":[18446744073709551614,18446744073709551615]}") (fun h json_obj =>
  HasKey h json_obj (lit "key") &&
  (Is IsArrayType h json_obj (lit "key") &&
  (call (GetArrayOfInt KUInt64 h json_obj (lit "key")) (fun value value_errors =>
  negb value_errors &&
  (negb (is_nil value) &&
  (len_is value 2 &&
  (elem_is value 0 (Some (SInt KUInt64 (18446744073709551614))) &&
  (elem_is value 1 (Some (SInt KUInt64 (18446744073709551615))))))))))).
Lemma TestCanParseArrayContainingMultipleUInt64HighBoundary_passes h0 : TestCanParseArrayContainingMultipleUInt64HighBoundary h0 = true.
Proof. passes TestCanParseArrayContainingMultipleUInt64HighBoundary. Qed.

(** ** JSON_Array_String_test.go *)

(** JSON_Array_String_test.go:7-25 *)
Definition TestCanParseEmptyArray (h0 : heap) : bool :=
  ParseJSONSuccessfully h0 (lit "{""key"":[]}") (fun h json_obj =>
  HasKey h json_obj (lit "key") &&
  (Is IsArrayType h json_obj (lit "key") &&
  (call (GetArrayOfString h json_obj (lit "key")) (fun value value_errors =>
  negb value_errors &&
  (negb (is_nil value) &&
  (len_is value 0)))))).
Lemma TestCanParseEmptyArray_passes h0 : TestCanParseEmptyArray h0 = true.
Proof. passes TestCanParseEmptyArray. Qed.

(** JSON_Array_String_test.go:27-47 *)
Definition TestCanParseArrayContainingSingleString (h0 : heap) : bool :=
  ParseJSONSuccessfully h0 (lit "{""key"":[""value""]}") (fun h json_obj =>
  HasKey h json_obj (lit "key") &&
  (Is IsArrayType h json_obj (lit "key") &&
  (call (GetArrayOfString h json_obj (lit "key")) (fun value value_errors =>
  negb value_errors &&
  (negb (is_nil value) &&
  (len_is value 1 &&
  (elem_is value 0 (Some (SStr (lit "value")))))))))).
Lemma TestCanParseArrayContainingSingleString_passes h0 : TestCanParseArrayContainingSingleString h0 = true.
Proof. passes TestCanParseArrayContainingSingleString. Qed.

(** JSON_Array_String_test.go:49-87 *)
Definition TestCanParseMultipleArraysContainingSingleString (h0 : heap) : bool :=
  ParseJSONSuccessfully h0 (lit "{""key"":[""value""],""key2"":[""value2""]}") (fun h json_obj =>
  (HasKey h json_obj (lit "key") &&
  (Is IsArrayType h json_obj (lit "key") &&
  (call (GetArrayOfString h json_obj (lit "key")) (fun value value_errors =>
  negb value_errors &&
  (negb (is_nil value) &&
  (len_is value 1 &&
  (elem_is value 0 (Some (SStr (lit "value")))))))))) &&
  (HasKey h json_obj (lit "key2") &&
  (Is IsArrayType h json_obj (lit "key2") &&
  (call (GetArrayOfString h json_obj (lit "key2")) (fun value value_errors =>
  negb value_errors &&
  (negb (is_nil value) &&
  (len_is value 1 &&
  (elem_is value 0 (Some (SStr (lit "value2"))))))))))).
Lemma TestCanParseMultipleArraysContainingSingleString_passes h0 : TestCanParseMultipleArraysContainingSingleString h0 = true.
Proof. passes TestCanParseMultipleArraysContainingSingleString. Qed.

(** JSON_Array_String_test.go:89-111 *)
Definition TestCanParseArrayContainingMultipleStrings (h0 : heap) : bool :=
  ParseJSONSuccessfully h0 (lit "{""key"":[""value"",""value2""]}") (fun h json_obj =>
  HasKey h json_obj (lit "key") &&
  (Is IsArrayType h json_obj (lit "key") &&
  (call (GetArrayOfString h json_obj (lit "key")) (fun value value_errors =>
  negb value_errors &&
  (negb (is_nil value) &&
  (len_is value 2 &&
  (elem_is value 0 (Some (SStr (lit "value"))) &&
  (elem_is value 1 (Some (SStr (lit "value2"))))))))))).
Lemma TestCanParseArrayContainingMultipleStrings_passes h0 : TestCanParseArrayContainingMultipleStrings h0 = true.
Proof. passes TestCanParseArrayContainingMultipleStrings. Qed.

Definition suite_arrays : list (heap -> bool) :=
  [TestCanParseBoolArrayTrue; TestCanParseBoolArrayFalse; TestCanParseBoolArrayMulitple;
   TestCanParseBoolArrayMulitpleWithNil; TestCannotParseBoolArrayMulitpleWithNil;
   TestCanParseArrayContainingSingleFloat32Boundary;
   TestCanParseMultipleArraysContainingSingleFloat32LowBoundary;
   TestCanParseMultipleArraysContainingMultipleFloat32LowBoundary;
   TestCanParseArrayContainingMultipleFloat32LowBoundary;
   TestCanParseArrayContainingSingleFloat32HighBoundary;
   TestCanParseMultipleArraysContainingSingleFloat32HighBoundary;
   TestCanParseMultipleArraysContainingMultipleFloat32HighBoundary;
   TestCanParseArrayContainingMultiplFloat32HighBoundary;
   TestCannotParseArrayContainingSingleFloat32BoundaryWhenNilValue;
   TestCanParseArrayContainingSingleFloat64Boundary;
   TestCanParseMultipleArraysContainingSingleFloat64LowBoundary;
   TestCanParseMultipleArraysContainingMultipleFloat64LowBoundary;
   TestCanParseArrayContainingMultipleFloat64LowBoundary;
   TestCanParseArrayContainingSingleFloat64HighBoundary;
   TestCanParseMultipleArraysContainingSingleFloat64HighBoundary;
   TestCanParseMultipleArraysContainingMultipleFloat64HighBoundary;
   TestCanParseArrayContainingMultiplFloat64HighBoundary;
   TestCannotParseArrayContainingSingleFloat64BoundaryWhenNilValue;
   TestCanParseArrayContainingSingleInt8LowBoundary;
   TestCanParseMultipleArraysContainingSingleInt8LowBoundary;
   TestCanParseMultipleArraysContainingMultipleInt8LowBoundary;
   TestCanParseArrayContainingMultipleInt8LowBoundary; TestCanParseArrayContainingSingleInt8HighBoundary;
   TestCanParseMultipleArraysContainingSingleHighBoundary;
   TestCanParseMultipleArraysContainingMultipleHighBoundary;
   TestCanParseArrayContainingMultipleInt8HighBoundary; TestCanParseArrayContainingSingleInt16LowBoundary;
   TestCanParseMultipleArraysContainingSingleLowBoundary;
   TestCanParseMultipleArraysContainingMultipleInt16LowBoundary;
   TestCanParseArrayContainingMultipleInt16LowBoundary; TestCanParseArrayContainingSingleInt16HighBoundary;
   TestCanParseMultipleArraysContainingSingleInt16HighBoundary;
   TestCanParseMultipleArraysContainingMultipleInt16HighBoundary;
   TestCanParseArrayContainingMultipleInt16HighBoundary; TestCanParseArrayContainingSingleInt32LowBoundary;
   TestCanParseMultipleArraysContainingSingleInt32LowBoundary;
   TestCanParseMultipleArraysContainingMultipleInt32LowBoundary;
   TestCanParseArrayContainingMultipleInt32LowBoundary; TestCanParseArrayContainingSingleInt32HighBoundary;
   TestCanParseMultipleArraysContainingSingleInt32HighBoundary;
   TestCanParseMultipleArraysContainingMultipleInt32HighBoundary;
   TestCanParseArrayContainingMultipleInt32HighBoundary; TestCanParseArrayContainingSingleInt64LowBoundary;
   TestCanParseMultipleArraysContainingSingleInt64LowBoundary;
   TestCanParseMultipleArraysContainingMultipleInt64LowBoundary;
   TestCanParseArrayContainingMultipleInt64LowBoundary; TestCanParseArrayContainingSingleInt64HighBoundary;
   TestCanParseMultipleArraysContainingSingleInt64HighBoundary;
   TestCanParseMultipleArraysContainingMultipleInt64HighBoundary;
   TestCanParseArrayContainingMultipleInt64HighBoundaryh; TestCanParseArrayContainingSingleUInt8LowBoundary;
   TestCanParseMultipleArraysContainingSingleUInt8LowBoundary;
   TestCanParseMultipleArraysContainingMultipleUInt8LowBoundary;
   TestCanParseArrayContainingMultipleUInt8LowBoundary; TestCanParseArrayContainingSingleUInt8HighBoundary;
   TestCanParseMultipleArraysContainingSingleUInt8HighBoundary;
   TestCanParseMultipleArraysContainingMultipleUInt8HighBoundary;
   TestCanParseArrayContainingMultipleUInt8HighBoundary; TestCanParseArrayContainingSingleUInt16LowBoundary;
   TestCanParseMultipleArraysContainingSingleUInt16LowBoundary;
   TestCanParseMultipleArraysContainingMultipleUInt16LowBoundary;
   TestCanParseArrayContainingMultipleUInt16LowBoundary; TestCanParseArrayContainingSingleUInt16HighBoundary;
   TestCanParseMultipleArraysContainingSingleUInt16HighBoundary;
   TestCanParseMultipleArraysContainingMultipleUInt16HighBoundary;
   TestCanParseArrayContainingMultipleUInt16HighBoundary; TestCanParseArrayContainingSingleUInt32LowBoundary;
   TestCanParseMultipleArraysContainingSingleUInt32LowBoundary;
   TestCanParseMultipleArraysContainingMultipleUInt32LowBoundary;
   TestCanParseArrayContainingMultipleUInt32LowBoundary; TestCanParseArrayContainingSingleUInt32HighBoundary;
   TestCanParseMultipleArraysContainingSingleUInt32HighBoundary;
   TestCanParseMultipleArraysContainingMultipleUInt32HighBoundary;
   TestCanParseArrayContainingMultipleUInt32HighBoundary; TestCanParseArrayContainingSingleUInt64LowBoundary;
   TestCanParseMultipleArraysContainingSingleUInt64LowBoundary;
   TestCanParseMultipleArraysContainingMultipleUInt64LowBoundary;
   TestCanParseArrayContainingMultipleUInt64LowBoundary; TestCanParseArrayContainingSingleUInt64HighBoundary;
   TestCanParseMultipleArraysContainingSingleUInt64HighBoundary;
   TestCanParseMultipleArraysContainingMultipleUInt64HighBoundary;
   TestCanParseArrayContainingMultipleUInt64HighBoundary; TestCanParseEmptyArray;
   TestCanParseArrayContainingSingleString; TestCanParseMultipleArraysContainingSingleString;
   TestCanParseArrayContainingMultipleStrings].
Lemma suite_arrays_passes h0 : Forall (fun t => t h0 = true) suite_arrays.
Proof.
  unfold suite_arrays.
  apply Forall_cons; [apply TestCanParseBoolArrayTrue_passes|].
  apply Forall_cons; [apply TestCanParseBoolArrayFalse_passes|].
  apply Forall_cons; [apply TestCanParseBoolArrayMulitple_passes|].
  apply Forall_cons; [apply TestCanParseBoolArrayMulitpleWithNil_passes|].
  apply Forall_cons; [apply TestCannotParseBoolArrayMulitpleWithNil_passes|].
  apply Forall_cons; [apply TestCanParseArrayContainingSingleFloat32Boundary_passes|].
  apply Forall_cons; [apply TestCanParseMultipleArraysContainingSingleFloat32LowBoundary_passes|].
  apply Forall_cons; [apply TestCanParseMultipleArraysContainingMultipleFloat32LowBoundary_passes|].
  apply Forall_cons; [apply TestCanParseArrayContainingMultipleFloat32LowBoundary_passes|].
  apply Forall_cons; [apply TestCanParseArrayContainingSingleFloat32HighBoundary_passes|].
  apply Forall_cons; [apply TestCanParseMultipleArraysContainingSingleFloat32HighBoundary_passes|].
  apply Forall_cons; [apply TestCanParseMultipleArraysContainingMultipleFloat32HighBoundary_passes|].
  apply Forall_cons; [apply TestCanParseArrayContainingMultiplFloat32HighBoundary_passes|].
  apply Forall_cons; [apply TestCannotParseArrayContainingSingleFloat32BoundaryWhenNilValue_passes|].
  apply Forall_cons; [apply TestCanParseArrayContainingSingleFloat64Boundary_passes|].
  apply Forall_cons; [apply TestCanParseMultipleArraysContainingSingleFloat64LowBoundary_passes|].
  apply Forall_cons; [apply TestCanParseMultipleArraysContainingMultipleFloat64LowBoundary_passes|].
  apply Forall_cons; [apply TestCanParseArrayContainingMultipleFloat64LowBoundary_passes|].
  apply Forall_cons; [apply TestCanParseArrayContainingSingleFloat64HighBoundary_passes|].
  apply Forall_cons; [apply TestCanParseMultipleArraysContainingSingleFloat64HighBoundary_passes|].
  apply Forall_cons; [apply TestCanParseMultipleArraysContainingMultipleFloat64HighBoundary_passes|].
  apply Forall_cons; [apply TestCanParseArrayContainingMultiplFloat64HighBoundary_passes|].
  apply Forall_cons; [apply TestCannotParseArrayContainingSingleFloat64BoundaryWhenNilValue_passes|].
  apply Forall_cons; [apply TestCanParseArrayContainingSingleInt8LowBoundary_passes|].
  apply Forall_cons; [apply TestCanParseMultipleArraysContainingSingleInt8LowBoundary_passes|].
  apply Forall_cons; [apply TestCanParseMultipleArraysContainingMultipleInt8LowBoundary_passes|].
  apply Forall_cons; [apply TestCanParseArrayContainingMultipleInt8LowBoundary_passes|].
  apply Forall_cons; [apply TestCanParseArrayContainingSingleInt8HighBoundary_passes|].
  apply Forall_cons; [apply TestCanParseMultipleArraysContainingSingleHighBoundary_passes|].
  apply Forall_cons; [apply TestCanParseMultipleArraysContainingMultipleHighBoundary_passes|].
  apply Forall_cons; [apply TestCanParseArrayContainingMultipleInt8HighBoundary_passes|].
  apply Forall_cons; [apply TestCanParseArrayContainingSingleInt16LowBoundary_passes|].
  apply Forall_cons; [apply TestCanParseMultipleArraysContainingSingleLowBoundary_passes|].
  apply Forall_cons; [apply TestCanParseMultipleArraysContainingMultipleInt16LowBoundary_passes|].
  apply Forall_cons; [apply TestCanParseArrayContainingMultipleInt16LowBoundary_passes|].
  apply Forall_cons; [apply TestCanParseArrayContainingSingleInt16HighBoundary_passes|].
  apply Forall_cons; [apply TestCanParseMultipleArraysContainingSingleInt16HighBoundary_passes|].
  apply Forall_cons; [apply TestCanParseMultipleArraysContainingMultipleInt16HighBoundary_passes|].
  apply Forall_cons; [apply TestCanParseArrayContainingMultipleInt16HighBoundary_passes|].
  apply Forall_cons; [apply TestCanParseArrayContainingSingleInt32LowBoundary_passes|].
  apply Forall_cons; [apply TestCanParseMultipleArraysContainingSingleInt32LowBoundary_passes|].
  apply Forall_cons; [apply TestCanParseMultipleArraysContainingMultipleInt32LowBoundary_passes|].
  apply Forall_cons; [apply TestCanParseArrayContainingMultipleInt32LowBoundary_passes|].
  apply Forall_cons; [apply TestCanParseArrayContainingSingleInt32HighBoundary_passes|].
  apply Forall_cons; [apply TestCanParseMultipleArraysContainingSingleInt32HighBoundary_passes|].
  apply Forall_cons; [apply TestCanParseMultipleArraysContainingMultipleInt32HighBoundary_passes|].
  apply Forall_cons; [apply TestCanParseArrayContainingMultipleInt32HighBoundary_passes|].
  apply Forall_cons; [apply TestCanParseArrayContainingSingleInt64LowBoundary_passes|].
  apply Forall_cons; [apply TestCanParseMultipleArraysContainingSingleInt64LowBoundary_passes|].
  apply Forall_cons; [apply TestCanParseMultipleArraysContainingMultipleInt64LowBoundary_passes|].
  apply Forall_cons; [apply TestCanParseArrayContainingMultipleInt64LowBoundary_passes|].
  apply Forall_cons; [apply TestCanParseArrayContainingSingleInt64HighBoundary_passes|].
  apply Forall_cons; [apply TestCanParseMultipleArraysContainingSingleInt64HighBoundary_passes|].
  apply Forall_cons; [apply TestCanParseMultipleArraysContainingMultipleInt64HighBoundary_passes|].
  apply Forall_cons; [apply TestCanParseArrayContainingMultipleInt64HighBoundaryh_passes|].
  apply Forall_cons; [apply TestCanParseArrayContainingSingleUInt8LowBoundary_passes|].
  apply Forall_cons; [apply TestCanParseMultipleArraysContainingSingleUInt8LowBoundary_passes|].
  apply Forall_cons; [apply TestCanParseMultipleArraysContainingMultipleUInt8LowBoundary_passes|].
  apply Forall_cons; [apply TestCanParseArrayContainingMultipleUInt8LowBoundary_passes|].
  apply Forall_cons; [apply TestCanParseArrayContainingSingleUInt8HighBoundary_passes|].
  apply Forall_cons; [apply TestCanParseMultipleArraysContainingSingleUInt8HighBoundary_passes|].
  apply Forall_cons; [apply TestCanParseMultipleArraysContainingMultipleUInt8HighBoundary_passes|].
  apply Forall_cons; [apply TestCanParseArrayContainingMultipleUInt8HighBoundary_passes|].
  apply Forall_cons; [apply TestCanParseArrayContainingSingleUInt16LowBoundary_passes|].
  apply Forall_cons; [apply TestCanParseMultipleArraysContainingSingleUInt16LowBoundary_passes|].
  apply Forall_cons; [apply TestCanParseMultipleArraysContainingMultipleUInt16LowBoundary_passes|].
  apply Forall_cons; [apply TestCanParseArrayContainingMultipleUInt16LowBoundary_passes|].
  apply Forall_cons; [apply TestCanParseArrayContainingSingleUInt16HighBoundary_passes|].
  apply Forall_cons; [apply TestCanParseMultipleArraysContainingSingleUInt16HighBoundary_passes|].
  apply Forall_cons; [apply TestCanParseMultipleArraysContainingMultipleUInt16HighBoundary_passes|].
  apply Forall_cons; [apply TestCanParseArrayContainingMultipleUInt16HighBoundary_passes|].
  apply Forall_cons; [apply TestCanParseArrayContainingSingleUInt32LowBoundary_passes|].
  apply Forall_cons; [apply TestCanParseMultipleArraysContainingSingleUInt32LowBoundary_passes|].
  apply Forall_cons; [apply TestCanParseMultipleArraysContainingMultipleUInt32LowBoundary_passes|].
  apply Forall_cons; [apply TestCanParseArrayContainingMultipleUInt32LowBoundary_passes|].
  apply Forall_cons; [apply TestCanParseArrayContainingSingleUInt32HighBoundary_passes|].
  apply Forall_cons; [apply TestCanParseMultipleArraysContainingSingleUInt32HighBoundary_passes|].
  apply Forall_cons; [apply TestCanParseMultipleArraysContainingMultipleUInt32HighBoundary_passes|].
  apply Forall_cons; [apply TestCanParseArrayContainingMultipleUInt32HighBoundary_passes|].
  apply Forall_cons; [apply TestCanParseArrayContainingSingleUInt64LowBoundary_passes|].
  apply Forall_cons; [apply TestCanParseMultipleArraysContainingSingleUInt64LowBoundary_passes|].
  apply Forall_cons; [apply TestCanParseMultipleArraysContainingMultipleUInt64LowBoundary_passes|].
  apply Forall_cons; [apply TestCanParseArrayContainingMultipleUInt64LowBoundary_passes|].
  apply Forall_cons; [apply TestCanParseArrayContainingSingleUInt64HighBoundary_passes|].
  apply Forall_cons; [apply TestCanParseMultipleArraysContainingSingleUInt64HighBoundary_passes|].
  apply Forall_cons; [apply TestCanParseMultipleArraysContainingMultipleUInt64HighBoundary_passes|].
  apply Forall_cons; [apply TestCanParseArrayContainingMultipleUInt64HighBoundary_passes|].
  apply Forall_cons; [apply TestCanParseEmptyArray_passes|].
  apply Forall_cons; [apply TestCanParseArrayContainingSingleString_passes|].
  apply Forall_cons; [apply TestCanParseMultipleArraysContainingSingleString_passes|].
  apply Forall_cons; [apply TestCanParseArrayContainingMultipleStrings_passes|].
  apply Forall_nil.
Qed.
