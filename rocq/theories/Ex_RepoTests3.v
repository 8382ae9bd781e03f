(** The tests of the printers, the JSON logger and the serializer of the project (/repo/tests/Debug, /repo/tests/BinarySerializer) and of MeshDataContainer,
    evaluated on the model (see [Ex_RepoTests]). *)
From Coq Require Import QArith String Ascii.
From Verif Require Import Base M_Index M_Conn M_Mesh M_Connections M_Data M_Text M_Print M_Log M_Traits M_Serial M_BoundSerial Ex_Mesh Ex_RepoTests.
Local Open Scope list_scope.
Local Open Scope nat_scope.

(** * tests/Debug/VariableExportTest.cpp *)
Definition real (a b : Z) : pval := PReal (Fin (Qmake a (Z.to_pos b))).
Definition intV (z : Z) : pval := PNum K_int z.
Definition listV : pval := PSeq false [intV 1; intV 2; intV 3].                                    (* std::list<int> *)
Definition vecV : pval := PSeq true (repeat listV 5).                                                (* std::vector<std::list<int>> *)
Definition mapV : pval :=                                                                            (* std::map<std::string, size_t>, in the order of the keys *)
  PSeq false [PPair (PText (str "druhy")) (PNum K_ulong 2); PPair (PText (str "prvni")) (PNum K_ulong 1); PPair (PText (str "treti")) (PNum K_ulong 3)].
Definition none (c : nat) : option (list (text * nat)) := None.
Definition show (v : pval) : option text := export stream none v.
Example export_basic :
  show (real 4215 100) = Some (str "42.15") /\ show (intV 15) = Some (str "15") /\ show (PText (str "*")) = Some (str """*""") /\
  show (PBool false) = Some (str "false").
Proof. vm_compute. repeat split. Qed.
Example export_containers :
  show listV = Some (str "[ 1, 2, 3 ]") /\
  show vecV = Some (str "[ [ 1, 2, 3 ], [ 1, 2, 3 ], [ 1, 2, 3 ], [ 1, 2, 3 ], [ 1, 2, 3 ] ]") /\
  show mapV = Some (str "[ { ""druhy"": 2}, { ""prvni"": 1}, { ""treti"": 3} ]").
Proof. vm_compute. repeat split. Qed.

(** lines 74-110: class 0 is ExportTest (attributes in the order of declaration), class 1 is tempData: density, velocity and the value of getMomentum *)
Definition vec3 (l : list pval) : pval := PIdx l.
Definition tempData : pval := PObj 1 [real 4215 100; vec3 [real 1 1; real 2 1; real 1 1]; vec3 [real 4215 100; real 8430 100; real 4215 100]].
Definition exportTest : pval :=
  PObj 0 [intV 1; real 4215 100; real 158 10; real (158 * 10 ^ 299) 1; PText (str "*"); PNum K_ulong 465135168421684684; PText (str "Ahojky");
          PSeq true (map (fun s => PText (str s)) ["tohle"; "je"; "nejlepsi"; "debugovaci"; "system"]%string); tempData].
Definition ioTraits (c : nat) : option (list (text * nat)) :=
  match c with
  | 0 => Some [(str "attrInt", 0); (str "attrDouble", 1); (str "attrFloat", 2); (str "attrLongDouble", 3); (str "attrChar", 4); (str "attrULL", 5); (str "attrStr", 6);
               (str "attrTempData", 8); (str "attrVec", 7)]
  | 1 => Some [(str "density", 0); (str "momentum", 2)]
  | _ => None
  end.
Definition arithExport : list (text * nat) := [(str "attrInt", 0); (str "attrDouble", 1); (str "attrTempData", 8)].
Definition arithTemp : list (text * nat) := [(str "density", 0); (str "velocity", 1)].
Example export_traited :
  export stream ioTraits exportTest =
    Some (str "{ ""attrInt"" : 1, ""attrDouble"" : 42.15, ""attrFloat"" : 15.8, ""attrLongDouble"" : 1.58e+301, ""attrChar"" : ""*"", ""attrULL"" : 465135168421684684, ""attrStr"" : ""Ahojky"", ""attrTempData"" : { ""density"" : 42.15, ""momentum"" : [ 42.15, 84.3, 42.15 ] }, ""attrVec"" : [ ""tohle"", ""je"", ""nejlepsi"", ""debugovaci"", ""system"" ] }") /\
  exportBound stream ioTraits [(0, arithExport)] exportTest =
    Some (str "{ ""attrInt"" : 1, ""attrDouble"" : 42.15, ""attrTempData"" : { ""density"" : 42.15, ""momentum"" : [ 42.15, 84.3, 42.15 ] } }") /\
  exportBound stream ioTraits [(0, arithExport); (1, arithTemp)] exportTest =
    Some (str "{ ""attrInt"" : 1, ""attrDouble"" : 42.15, ""attrTempData"" : { ""density"" : 42.15, ""velocity"" : [ 1, 2, 1 ] } }").
Proof. vm_compute. repeat split. Qed.

(** * tests/Debug/DBGVAR_JSONTest.cpp *)
Definition shown (n : string) (v : pval) : text * text := (str n, match show v with Some t => t | None => [] end).
Definition at_line (l : Z) (vs : list (text * text)) : call text :=
  match vs with v :: r => CVars l (str "__FILE__") v r | [] => CPlain ([], []) [] end.
Definition jsonCalls : list (call text) :=
  [at_line 158 [shown "b" (PBool false); shown "vec" vecV];
   at_line 160 [shown "!b" (PBool true); shown "vec[0]" listV];
   at_line 162 [shown "r" (real 4215 100); shown "i" (intV 15); shown "c" (PText (str "*")); shown "list" listV; shown "vec" vecV; shown "b" (PBool false); shown "m" mapV];
   at_line 164 [shown "r+1" (real 4315 100); shown "i+1" (intV 16); shown "char(c+1)" (PText (str "+")); shown "list" listV; shown "vec[0]" listV;
                shown "b" (PBool false); shown "m[""prvni""]" (PNum K_ulong 1)]].
(** lines 10-139: the lines of the expected file, with the number of leading tabs *)
Definition expectedLines : list (nat * string) :=
  [(0, "{"); (0, """logs"":["); (1, "{"); (2, """gInd"" : 0,"); (2, """file"" : ""__FILE__"","); (2, """line"" : 158,"); (2, """expr"" : ""b"",");
   (2, """data"" : false"); (1, "},"); (1, "{"); (2, """gInd"" : 0,"); (2, """file"" : ""__FILE__"","); (2, """line"" : 158,"); (2, """expr"" : ""vec"",");
   (2, """data"" : [ [ 1, 2, 3 ], [ 1, 2, 3 ], [ 1, 2, 3 ], [ 1, 2, 3 ], [ 1, 2, 3 ] ]"); (1, "},"); (1, "{"); (2, """gInd"" : 1,"); (2, """file"" : ""__FILE__"",");
   (2, """line"" : 160,"); (2, """expr"" : ""!b"","); (2, """data"" : true"); (1, "},"); (1, "{"); (2, """gInd"" : 1,"); (2, """file"" : ""__FILE__"",");
   (2, """line"" : 160,"); (2, """expr"" : ""vec[0]"","); (2, """data"" : [ 1, 2, 3 ]"); (1, "},"); (1, "{"); (2, """gInd"" : 2,"); (2, """file"" : ""__FILE__"",");
   (2, """line"" : 162,"); (2, """expr"" : ""r"","); (2, """data"" : 42.15"); (1, "},"); (1, "{"); (2, """gInd"" : 2,"); (2, """file"" : ""__FILE__"",");
   (2, """line"" : 162,"); (2, """expr"" : ""i"","); (2, """data"" : 15"); (1, "},"); (1, "{"); (2, """gInd"" : 2,"); (2, """file"" : ""__FILE__"",");
   (2, """line"" : 162,"); (2, """expr"" : ""c"","); (2, """data"" : ""*"""); (1, "},"); (1, "{"); (2, """gInd"" : 2,"); (2, """file"" : ""__FILE__"",");
   (2, """line"" : 162,"); (2, """expr"" : ""list"","); (2, """data"" : [ 1, 2, 3 ]"); (1, "},"); (1, "{"); (2, """gInd"" : 2,"); (2, """file"" : ""__FILE__"",");
   (2, """line"" : 162,"); (2, """expr"" : ""vec"","); (2, """data"" : [ [ 1, 2, 3 ], [ 1, 2, 3 ], [ 1, 2, 3 ], [ 1, 2, 3 ], [ 1, 2, 3 ] ]"); (1, "},"); (1, "{");
   (2, """gInd"" : 2,"); (2, """file"" : ""__FILE__"","); (2, """line"" : 162,"); (2, """expr"" : ""b"","); (2, """data"" : false"); (1, "},"); (1, "{");
   (2, """gInd"" : 2,"); (2, """file"" : ""__FILE__"","); (2, """line"" : 162,"); (2, """expr"" : ""m"",");
   (2, """data"" : [ { ""druhy"": 2}, { ""prvni"": 1}, { ""treti"": 3} ]"); (1, "},"); (1, "{"); (2, """gInd"" : 3,"); (2, """file"" : ""__FILE__"",");
   (2, """line"" : 164,"); (2, """expr"" : ""r+1"","); (2, """data"" : 43.15"); (1, "},"); (1, "{"); (2, """gInd"" : 3,"); (2, """file"" : ""__FILE__"",");
   (2, """line"" : 164,"); (2, """expr"" : ""i+1"","); (2, """data"" : 16"); (1, "},"); (1, "{"); (2, """gInd"" : 3,"); (2, """file"" : ""__FILE__"",");
   (2, """line"" : 164,"); (2, """expr"" : ""char(c+1)"","); (2, """data"" : ""+"""); (1, "},"); (1, "{"); (2, """gInd"" : 3,"); (2, """file"" : ""__FILE__"",");
   (2, """line"" : 164,"); (2, """expr"" : ""list"","); (2, """data"" : [ 1, 2, 3 ]"); (1, "},"); (1, "{"); (2, """gInd"" : 3,"); (2, """file"" : ""__FILE__"",");
   (2, """line"" : 164,"); (2, """expr"" : ""vec[0]"","); (2, """data"" : [ 1, 2, 3 ]"); (1, "},"); (1, "{"); (2, """gInd"" : 3,"); (2, """file"" : ""__FILE__"",");
   (2, """line"" : 164,"); (2, """expr"" : ""b"","); (2, """data"" : false"); (1, "},"); (1, "{"); (2, """gInd"" : 3,"); (2, """file"" : ""__FILE__"",");
   (2, """line"" : 164,"); (2, """expr"" : ""m[\""prvni\""]"","); (2, """data"" : 1"); (1, "}"); (0, "]"); (0, "}")]%string.
Definition unlines (l : list (nat * string)) : text :=
  match l with
  | [] => []
  | (k, s) :: r => repeat "009"%char k ++ str s ++ flat_map (fun x => ["010"%char] ++ repeat "009"%char (fst x) ++ str (snd x)) r
  end.
Example json_log :
  match (l <- jCalls jsonCalls (jNew (str "jlog.json") (fun _ => None)) ;; jDestroy l) with
  | Ok l => jFiles l (str "jlog.json") = Some (unlines expectedLines)
  | _ => False
  end.
Proof. vm_compute. reflexivity. Qed.

(** * tests/BinarySerializer/BinarySerializerTest.cpp *)
Definition doubleT : ty := TSimple (SBits 8).
Definition numStructT : ty := TPair doubleT (TPair doubleT TUnit).
Definition numStruct (a b : N) : den numStructT := (a, (b, tt)).
(* the bit patterns of 1, 2, 5, 85, 42.15 and 84.3 *)
Definition d1 : N := 4607182418800017408%N.  Definition d2 : N := 4611686018427387904%N.  Definition d5 : N := 4617315517961601024%N.
Definition d85 : N := 4635681760191971328%N. Definition d4215 : N := 4631128902443676467%N. Definition d843 : N := 4635632502071046963%N.
Definition intMapT : ty := TMap (TCompact None (SInt false 1)) (TSimple (SInt true 4)).
Definition intMap : den intMapT := [([49], 2); ([50], 3)]%Z.
Definition grow (n : nat) : nat := n + n.
(** lines 45-56 BinarySerializerTraits *)
Example serialize_traits :
  match read (write grow newSer numStructT (numStruct d2 d85)) numStructT (numStruct 0 0) with Ok (v, _) => v = numStruct d2 d85 | _ => False end.
Proof. vm_compute. reflexivity. Qed.
(** lines 58-69 BinarySerializerMap *)
Example serialize_map : match read (write grow newSer intMapT intMap) intMapT [] with Ok (v, _) => v = intMap | _ => False end.
Proof. vm_compute. reflexivity. Qed.
(** lines 71-92 BinarySerializerComplex: a std::valarray is read from the bytes of a std::vector *)
Example serialize_complex :
  let s := write grow (write grow (write grow newSer intMapT intMap) numStructT (numStruct d2 d85)) (TCompact None (SBits 8)) [d4215; d4215; d843; d843] in
  match (a <- read s intMapT [] ;; b <- read (snd a) numStructT (numStruct 0 0) ;; c <- read (snd b) (TSeq None doubleT) [] ;; Ok (fst a, fst b, fst c)) with
  | Ok (a, b, c) => a = intMap /\ b = numStruct d2 d85 /\ c = [d4215; d4215; d843; d843]
  | _ => False
  end.
Proof. vm_compute. repeat split. Qed.
(** lines 121-135 BinarySerializerBoundTraits: class 0 is NumStruct, the bound traits have data2 only *)
Definition dbl (n : N) : dval := VLeaf doubleT n.
Definition nsV (a b : N) : dval := VObj 0 [dbl a; dbl b].
Example serialize_bound :
  let traits (c : nat) := match c with 0 => Some [0; 1] | _ => None end in
  match wrBound traits [(0, [1])] (VSeq (nsV 0 0) [nsV d1 d5; nsV d1 d5]) with
  | Some b => rdBound traits [(0, [1])] (VSeq (nsV 0 0) []) b = Ok (VSeq (nsV 0 0) [nsV 0 d5; nsV 0 d5], [])
  | None => False
  end.
Proof. vm_compute. reflexivity. Qed.
(** lines 140-171 BinarySerializerFileDump, with 100 elements *)
Example serialize_file :
  let t := TSeq None numStructT in
  let v : den (TSeq None numStructT) := map (fun i => numStruct (N.of_nat i) (2 * N.of_nat i)%N) (seq 0 100) in
  let s := write grow newSer t v in
  let s' := loadFromFile grow (clear_ser s) (Some (saveToFile s)) in
  s_data s' = s_data s /\ match read s' t [] with Ok (w, _) => w = v | _ => False end.
Proof. vm_compute. repeat split. Qed.

(** * tests/UnstructuredMesh/MeshDataContainerTest.cpp; the numbers 52.2, 42.2, 42.15 are represented by 522, 422, 4215 *)
Definition contT (p : nat) : Type := N.
Definition zeroT (p : nat) : contT p := 0%N.
Definition mesh3 := twoPrisms.    (* twoDeformedPrisms has the same elements with other vertices *)
(** lines 25-33: MeshDataContainer<double, 3,3,1> cont(mesh3, 52.2); contAlloc.allocateData(cont, 42.2); cont[integer_sequence<2>] is position 2 *)
Definition cont : Data contT := allocateInit mesh3 [3; 3; 1] (fun _ => 522%N) emptyData.
Example data_one_type :
  cont 2 = repeat 522%N 14 /\ dimensionIndex [3; 3; 1] 1 = Some 2 /\ otherSize [3; 3; 1] cont 1 = 14.
Proof. vm_compute. repeat split. Qed.
(** lines 45-50: MeshDataContainer<std::tuple<int, double, char, int>, 3, 2, 0, 1> containerIni(mesh3,3, 42.15, 'a', 15) *)
Definition init4 (p : nat) : N := nth p [3; 4215; 97; 15]%N 0%N.
Definition contIni : Data contT := allocateInit mesh3 [3; 2; 0; 1] init4 emptyData.
Example data_tuple : contIni 0 = repeat 3%N 2 /\ contIni 1 = repeat 4215%N 9 /\ contIni 2 = repeat 97%N 8 /\ contIni 3 = repeat 15%N 14.
Proof. vm_compute. repeat split. Qed.

(** * tests/Traits/ArithmeticTraitsTest.cpp, lines 29-46 (pow, sqrt and abs; not log) *)
Definition nsT : aty := AClass [AReal; AReal] [0; 1].
Definition ns (a b : Q) : aval Q := M_Traits.VObj [VNum a; VNum b].
Definition nearNs (o : outcome (aval Q)) (a b : Q) : bool :=
  match o with Ok (M_Traits.VObj [VNum x; VNum y]) => close x a && close y b | _ => false end.
Definition powQ (x n : Q) : Q := Qpower x (Qnum n).
Example arithmetic :
  nearNs (times (K := numQ) false nsT (ns 21 15) 2%Q) 42 30 = true /\
  nearNs (star (K := numQ) T_none nsT (ns 21 15) (ns 2 3)) 42 45 = true /\ nearNs (star (K := numQ) T_none nsT (ns 2 3) (ns 21 15)) 42 45 = true /\
  nearNs (power (K := numQ) powQ false nsT (ns 21 15) 2%Q) 441 225 = true /\
  nearNs (un (K := numQ) sqrtQ nocompile1 nsT (ns 21 15)) (458257569 # 100000000) (387298334 # 100000000) = true /\
  nearNs (negate (K := numQ) false nsT (ns 21 15)) (-21) (-15) = true /\
  nearNs (n <- negate (K := numQ) false nsT (ns 21 15) ;; unAssign (K := numQ) Qabs.Qabs nocompile1 nsT n) 21 15 = true.
Proof. vm_compute. repeat split. Qed.
