(** Concrete messages and their bytes.  The bytes were computed by a separate encoder from the field names and numbers in the
    .proto files, whose numbers are those of the tags in the .pb.go files. *)
From Verif Require Import Base Domain Lexer Store Search Explain Yaml Service Dump Api Wire Rpc SpecRpc.
Local Open Scope N_scope.

Definition bytes (l : list N) : string := fold_right (fun n s => String (ascii_of_N n) s) "" l.
Definition keep (l : list (string * string)) : list (string * string) := l.

Definition rich : policy :=
  mkPolicy "p" "n" "d" [mkResource "user" "" [];
    mkResource "file" "x" [
      mkRelation "owner" "" (Some (XExpr "_this")) (Some (SRSet [REntity "user"; REntitySet "group" "member"]));
      mkRelation "reader" "r" (Some (XTree (TOp (TOp (TRule RThis) OpInter (TRule (RCu "owner"))) OpDiff (TOp (TRule (RTtu "parent" "viewer")) OpUnion (TRule RThis))))) (Some SRUniversal);
      mkRelation "" "" (Some (XExpr "")) None]] [("a", "1"); ("b", "")].
Definition rel1 : relationship := mkRel (Some (mkEntity "file" "f")) "owner" (Some (SEntity (mkEntity "user" "bob"))).
Definition rel2 : relationship := mkRel (Some (mkEntity "file" "f")) "reader" (Some (SEntitySet (Some (mkEntity "group" "g")) "member")).
Definition rel3 : relationship := mkRel (Some (mkEntity "file" "")) "reader" (Some (SResourceSet "user")).

(** The records that are stored. *)
Example stored_bytes :
     marshal_policy (mkPRec rich "app" 1700000000000000005) (p_attrs rich) = Some (bytes
       [10; 183; 1; 10; 1; 112; 18; 1; 110; 26; 1; 100; 34; 6; 10; 4; 117; 115; 101; 114; 34; 148; 1; 10; 4; 102;
       105; 108; 101; 18; 1; 120; 26; 49; 10; 5; 111; 119; 110; 101; 114; 26; 7; 10; 5; 95; 116; 104; 105; 115; 34;
       31; 10; 29; 10; 8; 10; 6; 10; 4; 117; 115; 101; 114; 10; 17; 18; 15; 10; 5; 103; 114; 111; 117; 112; 18; 6;
       109; 101; 109; 98; 101; 114; 26; 80; 10; 6; 114; 101; 97; 100; 101; 114; 18; 1; 114; 26; 63; 18; 61; 10; 59;
       10; 23; 10; 21; 10; 4; 18; 2; 10; 0; 16; 1; 26; 11; 18; 9; 18; 7; 10; 5; 111; 119; 110; 101; 114; 16; 2; 26;
       30; 10; 28; 10; 20; 18; 18; 26; 16; 10; 6; 112; 97; 114; 101; 110; 116; 18; 6; 118; 105; 101; 119; 101; 114;
       26; 4; 18; 2; 10; 0; 34; 2; 18; 0; 26; 4; 26; 2; 10; 0; 42; 6; 10; 1; 97; 18; 1; 49; 42; 5; 10; 1; 98; 18; 0;
       18; 3; 97; 112; 112; 26; 8; 8; 128; 226; 207; 170; 6; 16; 5])
  /\ marshal_edge (mkEdge (mkINode "file" "f" "owner" TyObjectSet) (mkINode "user" "" "" TyResourceSet)) = Some (bytes
       [10; 18; 10; 4; 102; 105; 108; 101; 18; 1; 102; 26; 5; 111; 119; 110; 101; 114; 32; 2; 18; 8; 10; 4; 117; 115;
       101; 114; 32; 3])
  /\ marshal_edge (mkEdge (mkINode "file" "f" "owner" TyObjectSet) (mkINode "user" "bob" "" TyObject)) = Some (bytes
       [10; 18; 10; 4; 102; 105; 108; 101; 18; 1; 102; 26; 5; 111; 119; 110; 101; 114; 32; 2; 18; 13; 10; 4; 117;
       115; 101; 114; 18; 3; 98; 111; 98; 32; 1])
  /\ Some (marshal_data ("ke", "y") (mkData "data" 3000000004)) = Some (bytes
       [10; 3; 107; 101; 121; 18; 4; 8; 3; 16; 4; 26; 4; 100; 97; 116; 97]).
Proof. vm_compute. repeat split. Qed.

(** Requests. *)
Example call_bytes :
     marshal_call keep (KCreatePolicy (Some (SentPolicy rich)) "app") = Some (bytes
       [10; 186; 1; 10; 183; 1; 10; 1; 112; 18; 1; 110; 26; 1; 100; 34; 6; 10; 4; 117; 115; 101; 114; 34; 148; 1; 10;
       4; 102; 105; 108; 101; 18; 1; 120; 26; 49; 10; 5; 111; 119; 110; 101; 114; 26; 7; 10; 5; 95; 116; 104; 105;
       115; 34; 31; 10; 29; 10; 8; 10; 6; 10; 4; 117; 115; 101; 114; 10; 17; 18; 15; 10; 5; 103; 114; 111; 117; 112;
       18; 6; 109; 101; 109; 98; 101; 114; 26; 80; 10; 6; 114; 101; 97; 100; 101; 114; 18; 1; 114; 26; 63; 18; 61;
       10; 59; 10; 23; 10; 21; 10; 4; 18; 2; 10; 0; 16; 1; 26; 11; 18; 9; 18; 7; 10; 5; 111; 119; 110; 101; 114; 16;
       2; 26; 30; 10; 28; 10; 20; 18; 18; 26; 16; 10; 6; 112; 97; 114; 101; 110; 116; 18; 6; 118; 105; 101; 119;
       101; 114; 26; 4; 18; 2; 10; 0; 34; 2; 18; 0; 26; 4; 26; 2; 10; 0; 42; 6; 10; 1; 97; 18; 1; 49; 42; 5; 10; 1;
       98; 18; 0; 18; 3; 97; 112; 112])
  /\ marshal_call keep (KCreatePolicy (Some (SentYaml "id: p")) "") = Some (bytes
       [10; 7; 18; 5; 105; 100; 58; 32; 112])
  /\ marshal_call keep (KCreatePolicy (Some SentUnset) "") = Some (bytes
       [10; 0])
  /\ marshal_call keep (KUpdatePolicy (Some (SentYaml "")) "x" 4294967295) = Some (bytes
       [10; 2; 18; 0; 18; 1; 120; 24; 255; 255; 255; 255; 255; 255; 255; 255; 255; 1])
  /\ marshal_call keep (KDeletePolicy "p") = Some (bytes
       [10; 1; 112])
  /\ marshal_call keep (KGetPolicy "q") = Some (bytes
       [10; 1; 113])
  /\ marshal_call keep (KListPolicyIds) = Some (bytes
       [])
  /\ marshal_call keep (KSetRelationship "p" (Some rel1) "data") = Some (bytes
       [10; 1; 112; 18; 33; 10; 9; 10; 4; 102; 105; 108; 101; 18; 1; 102; 18; 5; 111; 119; 110; 101; 114; 26; 13; 10;
       11; 10; 4; 117; 115; 101; 114; 18; 3; 98; 111; 98; 26; 4; 100; 97; 116; 97])
  /\ marshal_call keep (KDeleteRelationship "p" (Some rel2)) = Some (bytes
       [10; 1; 112; 18; 43; 10; 9; 10; 4; 102; 105; 108; 101; 18; 1; 102; 18; 6; 114; 101; 97; 100; 101; 114; 26; 22;
       18; 20; 10; 10; 10; 5; 103; 114; 111; 117; 112; 18; 1; 103; 18; 6; 109; 101; 109; 98; 101; 114])
  /\ marshal_call keep (KGetRelationship "" (Some rel3)) = Some (bytes
       [18; 26; 10; 6; 10; 4; 102; 105; 108; 101; 18; 6; 114; 101; 97; 100; 101; 114; 26; 8; 26; 6; 10; 4; 117; 115;
       101; 114])
  /\ marshal_call keep (KFindRelationshipRecords "p" (Some (mkSel (Some (OSObject (Some (mkEntity "file" "f")))) (Some (LSName "owner")) (Some (USSubject (Some (SEntity (mkEntity "user" "bob")))))))) = Some (bytes
       [10; 1; 112; 18; 39; 10; 11; 10; 9; 10; 4; 102; 105; 108; 101; 18; 1; 102; 18; 7; 10; 5; 111; 119; 110; 101;
       114; 26; 15; 10; 13; 10; 11; 10; 4; 117; 115; 101; 114; 18; 3; 98; 111; 98])
  /\ marshal_call keep (KFindRelationshipRecords "p" (Some (mkSel (Some OSWild) (Some LSWild) (Some USWild)))) = Some (bytes
       [10; 1; 112; 18; 12; 10; 2; 18; 0; 18; 2; 18; 0; 26; 2; 18; 0])
  /\ marshal_call keep (KDeleteRelationships "p" (Some (mkSel (Some (OSResource "file")) None (Some (USResource "user"))))) = Some (bytes
       [10; 1; 112; 18; 16; 10; 6; 26; 4; 102; 105; 108; 101; 26; 6; 26; 4; 117; 115; 101; 114])
  /\ marshal_call keep (KCheck "p" (Some (mkAccess (Some (mkEntity "file" "f")) "reader" (Some (mkEntity "user" "bob"))))) = Some (bytes
       [10; 1; 112; 18; 32; 10; 9; 10; 4; 102; 105; 108; 101; 18; 1; 102; 18; 6; 114; 101; 97; 100; 101; 114; 26; 11;
       10; 4; 117; 115; 101; 114; 18; 3; 98; 111; 98])
  /\ marshal_call keep (KExplainCheck "p" (Some (mkAccess (Some (mkEntity "file" "f")) "reader" (Some (mkEntity "user" "bob")))) FDot) = Some (bytes
       [10; 1; 112; 18; 32; 10; 9; 10; 4; 102; 105; 108; 101; 18; 1; 102; 18; 6; 114; 101; 97; 100; 101; 114; 26; 11;
       10; 4; 117; 115; 101; 114; 18; 3; 98; 111; 98; 24; 2])
  /\ marshal_call keep (KExpand "p" (Some (NSet (Some (mkEntity "file" "f")) "owner")) FJson) = Some (bytes
       [10; 1; 112; 18; 20; 10; 18; 10; 9; 10; 4; 102; 105; 108; 101; 18; 1; 102; 18; 5; 111; 119; 110; 101; 114; 24;
       1])
  /\ marshal_call keep (KExpand "p" (Some (NEntity (Some (mkEntity "file" "f")))) (FOther 7)) = Some (bytes
       [10; 1; 112; 18; 13; 18; 11; 10; 9; 10; 4; 102; 105; 108; 101; 18; 1; 102; 24; 7])
  /\ marshal_call keep (KExpand "p" (Some (NWild "file")) FSpew) = Some (bytes
       [10; 1; 112; 18; 8; 26; 6; 10; 4; 102; 105; 108; 101])
  /\ marshal_call keep (KDumpRelationships "p" 3) = Some (bytes
       [10; 1; 112; 16; 3]).
Proof. vm_compute. repeat split. Qed.

(** Responses. *)
Example reply_bytes :
     marshal_reply keep (PCreated (Some (mkPRec rich "app" 1700000000000000005))) = Some (bytes
       [10; 201; 1; 10; 183; 1; 10; 1; 112; 18; 1; 110; 26; 1; 100; 34; 6; 10; 4; 117; 115; 101; 114; 34; 148; 1; 10;
       4; 102; 105; 108; 101; 18; 1; 120; 26; 49; 10; 5; 111; 119; 110; 101; 114; 26; 7; 10; 5; 95; 116; 104; 105;
       115; 34; 31; 10; 29; 10; 8; 10; 6; 10; 4; 117; 115; 101; 114; 10; 17; 18; 15; 10; 5; 103; 114; 111; 117; 112;
       18; 6; 109; 101; 109; 98; 101; 114; 26; 80; 10; 6; 114; 101; 97; 100; 101; 114; 18; 1; 114; 26; 63; 18; 61;
       10; 59; 10; 23; 10; 21; 10; 4; 18; 2; 10; 0; 16; 1; 26; 11; 18; 9; 18; 7; 10; 5; 111; 119; 110; 101; 114; 16;
       2; 26; 30; 10; 28; 10; 20; 18; 18; 26; 16; 10; 6; 112; 97; 114; 101; 110; 116; 18; 6; 118; 105; 101; 119;
       101; 114; 26; 4; 18; 2; 10; 0; 34; 2; 18; 0; 26; 4; 26; 2; 10; 0; 42; 6; 10; 1; 97; 18; 1; 49; 42; 5; 10; 1;
       98; 18; 0; 18; 3; 97; 112; 112; 26; 8; 8; 128; 226; 207; 170; 6; 16; 5])
  /\ marshal_reply keep (PUpdated) = Some (bytes
       [])
  /\ marshal_reply keep (PDeletedPolicy true 300) = Some (bytes
       [8; 1; 16; 172; 2])
  /\ marshal_reply keep (PPolicy None) = Some (bytes
       [])
  /\ marshal_reply keep (PPolicy (Some (mkPRec rich "app" 1700000000000000005))) = Some (bytes
       [10; 201; 1; 10; 183; 1; 10; 1; 112; 18; 1; 110; 26; 1; 100; 34; 6; 10; 4; 117; 115; 101; 114; 34; 148; 1; 10;
       4; 102; 105; 108; 101; 18; 1; 120; 26; 49; 10; 5; 111; 119; 110; 101; 114; 26; 7; 10; 5; 95; 116; 104; 105;
       115; 34; 31; 10; 29; 10; 8; 10; 6; 10; 4; 117; 115; 101; 114; 10; 17; 18; 15; 10; 5; 103; 114; 111; 117; 112;
       18; 6; 109; 101; 109; 98; 101; 114; 26; 80; 10; 6; 114; 101; 97; 100; 101; 114; 18; 1; 114; 26; 63; 18; 61;
       10; 59; 10; 23; 10; 21; 10; 4; 18; 2; 10; 0; 16; 1; 26; 11; 18; 9; 18; 7; 10; 5; 111; 119; 110; 101; 114; 16;
       2; 26; 30; 10; 28; 10; 20; 18; 18; 26; 16; 10; 6; 112; 97; 114; 101; 110; 116; 18; 6; 118; 105; 101; 119;
       101; 114; 26; 4; 18; 2; 10; 0; 34; 2; 18; 0; 26; 4; 26; 2; 10; 0; 42; 6; 10; 1; 97; 18; 1; 49; 42; 5; 10; 1;
       98; 18; 0; 18; 3; 97; 112; 112; 26; 8; 8; 128; 226; 207; 170; 6; 16; 5])
  /\ marshal_reply keep (PPolicyIds ["p"; ""; "q"]) = Some (bytes
       [10; 3; 10; 1; 112; 10; 0; 10; 3; 10; 1; 113])
  /\ marshal_reply keep (PSet true) = Some (bytes
       [8; 1])
  /\ marshal_reply keep (PDeleted false) = Some (bytes
       [])
  /\ marshal_reply keep (PRecord (Some (mkRRec "p" rel1 2000000000 "data"))) = Some (bytes
       [10; 48; 10; 1; 112; 18; 33; 10; 9; 10; 4; 102; 105; 108; 101; 18; 1; 102; 18; 5; 111; 119; 110; 101; 114; 26;
       13; 10; 11; 10; 4; 117; 115; 101; 114; 18; 3; 98; 111; 98; 26; 2; 8; 2; 34; 4; 100; 97; 116; 97])
  /\ marshal_reply keep (PRecords (Some [Some (mkRRec "p" rel2 7 ""); None; Some (mkRRec "p" rel3 0 "z")])) = Some (bytes
       [10; 94; 10; 52; 10; 1; 112; 18; 43; 10; 9; 10; 4; 102; 105; 108; 101; 18; 1; 102; 18; 6; 114; 101; 97; 100;
       101; 114; 26; 22; 18; 20; 10; 10; 10; 5; 103; 114; 111; 117; 112; 18; 1; 103; 18; 6; 109; 101; 109; 98; 101;
       114; 26; 2; 16; 7; 10; 0; 10; 36; 10; 1; 112; 18; 26; 10; 6; 10; 4; 102; 105; 108; 101; 18; 6; 114; 101; 97;
       100; 101; 114; 26; 8; 26; 6; 10; 4; 117; 115; 101; 114; 26; 0; 34; 1; 122])
  /\ marshal_reply keep (PCount 18446744073709551615) = Some (bytes
       [8; 255; 255; 255; 255; 255; 255; 255; 255; 255; 1])
  /\ marshal_reply keep (PDecision (Some true)) = Some (bytes
       [10; 2; 8; 1])
  /\ marshal_reply keep (PExplained "t" true FSpew) = Some (bytes
       [10; 1; 116; 16; 1])
  /\ marshal_reply keep (PExpanded "t" FDot) = Some (bytes
       [10; 1; 116; 16; 2])
  /\ marshal_reply keep (PDumped (Some "")) = Some (bytes
       [18; 0]).
Proof. vm_compute. repeat split. Qed.

(** And back. *)
Example calls_back :
  map (fun c => match marshal_call keep c with Some b => unmarshal_call (method_of c) recursion_limit b | None => None end)
    [KCreatePolicy (Some (SentPolicy rich)) "app";
     KCreatePolicy (Some (SentYaml "id: p")) "";
     KCreatePolicy (Some SentUnset) "";
     KUpdatePolicy (Some (SentYaml "")) "x" 4294967295;
     KDeletePolicy "p";
     KGetPolicy "q";
     KListPolicyIds;
     KSetRelationship "p" (Some rel1) "data";
     KDeleteRelationship "p" (Some rel2);
     KGetRelationship "" (Some rel3);
     KFindRelationshipRecords "p" (Some (mkSel (Some (OSObject (Some (mkEntity "file" "f")))) (Some (LSName "owner")) (Some (USSubject (Some (SEntity (mkEntity "user" "bob")))))));
     KFindRelationshipRecords "p" (Some (mkSel (Some OSWild) (Some LSWild) (Some USWild)));
     KDeleteRelationships "p" (Some (mkSel (Some (OSResource "file")) None (Some (USResource "user"))));
     KCheck "p" (Some (mkAccess (Some (mkEntity "file" "f")) "reader" (Some (mkEntity "user" "bob"))));
     KExplainCheck "p" (Some (mkAccess (Some (mkEntity "file" "f")) "reader" (Some (mkEntity "user" "bob")))) FDot;
     KExpand "p" (Some (NSet (Some (mkEntity "file" "f")) "owner")) FJson;
     KExpand "p" (Some (NEntity (Some (mkEntity "file" "f")))) (FOther 7);
     KExpand "p" (Some (NWild "file")) FSpew;
     KDumpRelationships "p" 3] =
  map Some
    [KCreatePolicy (Some (SentPolicy rich)) "app";
     KCreatePolicy (Some (SentYaml "id: p")) "";
     KCreatePolicy (Some SentUnset) "";
     KUpdatePolicy (Some (SentYaml "")) "x" 4294967295;
     KDeletePolicy "p";
     KGetPolicy "q";
     KListPolicyIds;
     KSetRelationship "p" (Some rel1) "data";
     KDeleteRelationship "p" (Some rel2);
     KGetRelationship "" (Some rel3);
     KFindRelationshipRecords "p" (Some (mkSel (Some (OSObject (Some (mkEntity "file" "f")))) (Some (LSName "owner")) (Some (USSubject (Some (SEntity (mkEntity "user" "bob")))))));
     KFindRelationshipRecords "p" (Some (mkSel (Some OSWild) (Some LSWild) (Some USWild)));
     KDeleteRelationships "p" (Some (mkSel (Some (OSResource "file")) None (Some (USResource "user"))));
     KCheck "p" (Some (mkAccess (Some (mkEntity "file" "f")) "reader" (Some (mkEntity "user" "bob"))));
     KExplainCheck "p" (Some (mkAccess (Some (mkEntity "file" "f")) "reader" (Some (mkEntity "user" "bob")))) FDot;
     KExpand "p" (Some (NSet (Some (mkEntity "file" "f")) "owner")) FJson;
     KExpand "p" (Some (NEntity (Some (mkEntity "file" "f")))) (FOther 7);
     KExpand "p" (Some (NWild "file")) FSpew;
     KDumpRelationships "p" 3].
Proof. vm_compute. reflexivity. Qed.

Example replies_back :
  map (fun x => match marshal_reply keep (snd x) with Some b => unmarshal_reply (fst x) recursion_limit b | None => None end)
    [(MCreatePolicy, PCreated (Some (mkPRec rich "app" 1700000000000000005)));
     (MUpdatePolicy, PUpdated);
     (MDeletePolicy, PDeletedPolicy true 300);
     (MGetPolicy, PPolicy None);
     (MGetPolicy, PPolicy (Some (mkPRec rich "app" 1700000000000000005)));
     (MListPolicyIds, PPolicyIds ["p"; ""; "q"]);
     (MSetRelationship, PSet true);
     (MDeleteRelationship, PDeleted false);
     (MGetRelationship, PRecord (Some (mkRRec "p" rel1 2000000000 "data")));
     (MFindRelationshipRecords, PRecords (Some [Some (mkRRec "p" rel2 7 ""); None; Some (mkRRec "p" rel3 0 "z")]));
     (MDeleteRelationships, PCount 18446744073709551615);
     (MCheck, PDecision (Some true));
     (MExplainCheck, PExplained "t" true FSpew);
     (MExpand, PExpanded "t" FDot);
     (MDumpRelationships, PDumped (Some ""))] =
  map (fun r => Some (as_received r))
    [PCreated (Some (mkPRec rich "app" 1700000000000000005));
     PUpdated;
     PDeletedPolicy true 300;
     PPolicy None;
     PPolicy (Some (mkPRec rich "app" 1700000000000000005));
     PPolicyIds ["p"; ""; "q"];
     PSet true;
     PDeleted false;
     PRecord (Some (mkRRec "p" rel1 2000000000 "data"));
     PRecords (Some [Some (mkRRec "p" rel2 7 ""); None; Some (mkRRec "p" rel3 0 "z")]);
     PCount 18446744073709551615;
     PDecision (Some true);
     PExplained "t" true FSpew;
     PExpanded "t" FDot;
     PDumped (Some "")].
Proof. vm_compute. reflexivity. Qed.

(** Messages that no encoder here writes: other values of a bool, repeated and unknown fields, parts of a message, several members of a
    oneof, wide enums, bytes that are no text. *)
Example unusual_bytes :
     unmarshal_reply MSetRelationship recursion_limit (bytes
       [8; 2]) =
     Some (PSet true)
  /\ unmarshal_reply MSetRelationship recursion_limit (bytes
       [8; 1; 8; 0]) =
     Some (PSet false)
  /\ unmarshal_reply MSetRelationship recursion_limit (bytes
       [120; 5; 8; 1; 122; 2; 1; 2]) =
     Some (PSet true)
  /\ unmarshal_reply MSetRelationship recursion_limit (bytes
       [8]) =
     None
  /\ unmarshal_reply MSetRelationship recursion_limit (bytes
       [10; 1; 1]) =
     Some (PSet false)
  /\ unmarshal_call MCheck recursion_limit (bytes
       [18; 8; 18; 6; 114; 101; 97; 100; 101; 114; 10; 1; 112; 18; 8; 10; 6; 10; 4; 102; 105; 108; 101; 10; 1; 113;
       18; 18; 10; 3; 18; 1; 102; 26; 11; 10; 4; 117; 115; 101; 114; 18; 3; 98; 111; 98]) =
     Some (KCheck "q" (Some (mkAccess (Some (mkEntity "file" "f")) "reader" (Some (mkEntity "user" "bob")))))
  /\ unmarshal_call MCreatePolicy recursion_limit (bytes
       [10; 25; 10; 23; 10; 1; 112; 34; 3; 10; 1; 97; 42; 6; 10; 1; 107; 18; 1; 49; 42; 5; 10; 1; 98; 18; 0; 10; 18;
       10; 16; 18; 1; 110; 34; 3; 10; 1; 98; 42; 6; 10; 1; 107; 18; 1; 50]) =
     Some (KCreatePolicy (Some (SentPolicy (mkPolicy "p" "n" "" [mkResource "a" "" []; mkResource "b" "" []] [("b", ""); ("k", "2")]))) "")
  /\ unmarshal_call MCreatePolicy recursion_limit (bytes
       [10; 5; 10; 3; 10; 1; 112; 10; 3; 18; 1; 121]) =
     Some (KCreatePolicy (Some (SentYaml "y")) "")
  /\ unmarshal_call MCreatePolicy recursion_limit (bytes
       [10; 3; 18; 1; 121; 10; 5; 10; 3; 10; 1; 112]) =
     Some (KCreatePolicy (Some (SentPolicy (mkPolicy "p" "" "" [] []))) "")
  /\ unmarshal_call MFindRelationshipRecords recursion_limit (bytes
       [18; 8; 26; 6; 26; 4; 117; 115; 101; 114; 18; 4; 26; 2; 18; 0]) =
     Some (KFindRelationshipRecords "" (Some (mkSel None None (Some USWild))))
  /\ unmarshal_call MExpand recursion_limit (bytes
       [24; 255; 255; 255; 255; 255; 255; 255; 255; 255; 1; 24; 130; 128; 128; 128; 16]) =
     Some (KExpand "" None FDot)
  /\ unmarshal_call MGetPolicy recursion_limit (bytes
       [10; 1; 255]) =
     None
  /\ unmarshal_call MSetRelationship recursion_limit (bytes
       [10; 1; 112; 26; 1; 255]) =
     Some (KSetRelationship "p" None (bytes [255]))
  /\ unmarshal_call MCreatePolicy recursion_limit (bytes
       [18; 1; 255]) =
     Some (KCreatePolicy None (bytes [255]))
  /\ unmarshal_reply MGetRelationship recursion_limit (bytes
       [10; 3; 34; 1; 255]) =
     Some (PRecord (Some (mkRRec "" no_relationship 0 (bytes [255])))).
Proof. vm_compute. repeat split. Qed.
