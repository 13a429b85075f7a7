(** The tests of /repo, run on the model: kfparser/parser_test.go and utils/annotation_test.go, case by case (made by
    tools/go_tests.py).  They test the model, not the code: where the model gave anything else than the code is expected to, one
    of these would fail.  Nil slices are told from empty ones, as assert.EqualValues does. *)
From Verif Require Import Str Schema Validator ParseKF Annotation LexSpec.
Local Open Scope string_scope.

(** The imported statement parsers on the statements of the tests: SQL by its first word, and what the calls consist of. *)
Definition calls_of_tests : list (string * stmt) :=
  [("act1(@caller,'a','b');", ActionCall (lit "act1") [ABind (lit "@caller"); AExpr; AExpr]);
   ("$v=ext1.call(@caller,'a','b');", ExtCall (lit "ext1") [ABind (lit "@caller"); AExpr; AExpr] [lit "$v"]);
   ("$v=ext1.call(2,'3',$a,@caller,-2,1+-2,(1*2)+3,1<=2,1and$a,lower(@caller),upper(@caller));",
      ExtCall (lit "ext1") [AExpr; AExpr; ABind (lit "$a"); ABind (lit "@caller"); AExpr; AExpr; AExpr; AExpr; AExpr; AExpr; AExpr] [lit "$v"]);
   ("act1(1);", ActionCall (lit "act1") [AExpr]);
   ("$v=ext1.call(@caller);", ExtCall (lit "ext1") [ABind (lit "@caller")] [lit "$v"]);
   ("$var1,$var1=token.balanceOf($param);", ExtCall (lit "token") [ABind (lit "$param")] [lit "$var1"; lit "$var1"]);
   ("act1();", ActionCall (lit "act1") []);
   ("act1($nondefined);", ActionCall (lit "act1") [ABind (lit "$nondefined")]);
   ("$var1=token.balanceOf($nondefined);", ExtCall (lit "token") [ABind (lit "$nondefined")] [lit "$var1"]);
   ("act1(@nondefined);", ActionCall (lit "act1") [ABind (lit "@nondefined")]);
   ("$var1=token.balanceOf(@nondefined);", ExtCall (lit "token") [ABind (lit "@nondefined")] [lit "$var1"]);
   ("$var1,$var1=erc.balanceOf($param);", ExtCall (lit "erc") [ABind (lit "$param")] [lit "$var1"; lit "$var1"])].
Definition test_act (st : str) : res stmt :=
  if mem_str (firstn 6 (lower st)) [lit "select"; lit "insert"; lit "update"; lit "delete"] then Ok Dml
  else match find (fun c => str_eqb (lit (fst c)) st) calls_of_tests with Some (_, r) => Ok r | None => Err (ENew (lit "unknown statement")) end.
Definition test_world : world :=
  World (Externals test_act (fun _ => Ok Datatypes.tt) (fun _ => Ok Datatypes.tt) (fun p => p)) (fun _ => (lit "line 1:0 something", [])).
(** assert.NoError and assert.EqualValues *)
Definition gives (text : str) (s : schema) : Prop := parse_kf test_world text [] Default = Outcome (Some s) [].
(** assert.Error, strings.Contains(err.Error(), text of the sentinel) and assert.ErrorIs *)
Definition complains (text : str) (k : sentinel) : Prop :=
  let l := o_listener (parse_kf test_world text [] Default) in
  no_error (parse_kf test_world text [] Default) = false /\ err_is l k = true /\ firstn (length (sentinel_text k)) (list_text l) = sentinel_text k.

(** valid syntax: only database clause *)
Example test_1 : gives (lit "database td;")
  (Schema (lit "") (lit "td") None None None).
Proof. vm_compute. repeat split. Qed.
(** valid syntax: with extension directive *)
Example test_2 : gives (lit "database td; use a_ext{addr: '0x0000', seed: 3} as ext1;")
  (Schema (lit "") (lit "td") None None (Some [Extension (lit "a_ext") (Some [ExtConfig (lit "addr") (lit "'0x0000'"); ExtConfig (lit "seed") (lit "3")]) (lit "ext1")])).
Proof. vm_compute. repeat split. Qed.
(** valid syntax: table with int column *)
Example test_3 : gives (lit "database td1; table tt1 { tc1 int, }")
  (Schema (lit "") (lit "td1") (Some [Table (lit "tt1") (Some [Column (lit "tc1") ColInt None]) None None]) None None).
Proof. vm_compute. repeat split. Qed.
(** valid syntax: table with int column with all attrs *)
Example test_4 : gives (lit "database td1; table tt1 { tc1 int min(3) max(30) default(3) notnull primary unique }")
  (Schema (lit "") (lit "td1") (Some [Table (lit "tt1") (Some [Column (lit "tc1") ColInt (Some [Attribute AttrMin (Some (lit "3")); Attribute AttrMax (Some (lit "30")); Attribute AttrDefault (Some (lit "3")); Attribute AttrNotNull None; Attribute AttrPrimaryKey None; Attribute AttrUnique None])]) None None]) None None).
Proof. vm_compute. repeat split. Qed.
(** valid syntax: table with text column *)
Example test_5 : gives (lit "database td1; table tt1 { tc1 text}")
  (Schema (lit "") (lit "td1") (Some [Table (lit "tt1") (Some [Column (lit "tc1") ColText None]) None None]) None None).
Proof. vm_compute. repeat split. Qed.
(** valid syntax: table with text column with all attrs *)
Example test_6 : gives (lit "database td1; table tt1 { tc1 text minlen(3) maxlen(30) default('3') notnull primary unique }")
  (Schema (lit "") (lit "td1") (Some [Table (lit "tt1") (Some [Column (lit "tc1") ColText (Some [Attribute AttrMinLength (Some (lit "3")); Attribute AttrMaxLength (Some (lit "30")); Attribute AttrDefault (Some (lit "'3'")); Attribute AttrNotNull None; Attribute AttrPrimaryKey None; Attribute AttrUnique None])]) None None]) None None).
Proof. vm_compute. repeat split. Qed.
(** valid syntax: table with blob column *)
Example test_7 : gives (lit "database td1; table tt1 { tc1 blob}")
  (Schema (lit "") (lit "td1") (Some [Table (lit "tt1") (Some [Column (lit "tc1") ColBlob None]) None None]) None None).
Proof. vm_compute. repeat split. Qed.
(** valid syntax: table with blob column with all attrs *)
Example test_8 : gives (lit "database td1; table tt1 { tc1 blob minlen(3) maxlen(30) default(3) notnull primary unique }")
  (Schema (lit "") (lit "td1") (Some [Table (lit "tt1") (Some [Column (lit "tc1") ColBlob (Some [Attribute AttrMinLength (Some (lit "3")); Attribute AttrMaxLength (Some (lit "30")); Attribute AttrDefault (Some (lit "3")); Attribute AttrNotNull None; Attribute AttrPrimaryKey None; Attribute AttrUnique None])]) None None]) None None).
Proof. vm_compute. repeat split. Qed.
(** valid syntax: table with primary index *)
Example test_9 : gives (lit "database td1; table tt1 { tc1 int, tc2 text, #idx1 primary (tc1,tc2) }")
  (Schema (lit "") (lit "td1") (Some [Table (lit "tt1") (Some [Column (lit "tc1") ColInt None; Column (lit "tc2") ColText None]) (Some [Index (lit "idx1") (Some [(lit "tc1"); (lit "tc2")]) IdxPrimary]) None]) None None).
Proof. vm_compute. repeat split. Qed.
(** valid syntax: table with index index *)
Example test_10 : gives (lit "database td1; table tt1 { tc1 int, tc2 text, #idx1 index (tc1,tc2) }")
  (Schema (lit "") (lit "td1") (Some [Table (lit "tt1") (Some [Column (lit "tc1") ColInt None; Column (lit "tc2") ColText None]) (Some [Index (lit "idx1") (Some [(lit "tc1"); (lit "tc2")]) IdxBtree]) None]) None None).
Proof. vm_compute. repeat split. Qed.
(** valid syntax: table with unique index *)
Example test_11 : gives (lit "database td1; table tt1 { tc1 int, tc2 text, #idx1 unique (tc1,tc2) }")
  (Schema (lit "") (lit "td1") (Some [Table (lit "tt1") (Some [Column (lit "tc1") ColInt None; Column (lit "tc2") ColText None]) (Some [Index (lit "idx1") (Some [(lit "tc1"); (lit "tc2")]) IdxUniqueBtree]) None]) None None).
Proof. vm_compute. repeat split. Qed.
(** valid syntax: table with foreign key update no_action using abbr without do *)
Example test_12 : gives (lit "database td1; 
			table tt1 { tc1 int, tc2 text }
            table tt2 { tc1 int, tc2 text, fk (tc1) ref tt1 (tc1) on_update no_action,}")
  (Schema (lit "") (lit "td1") (Some [Table (lit "tt1") (Some [Column (lit "tc1") ColInt None; Column (lit "tc2") ColText None]) None None; Table (lit "tt2") (Some [Column (lit "tc1") ColInt None; Column (lit "tc2") ColText None]) None (Some [FKey (Some [(lit "tc1")]) (Some [(lit "tc1")]) (lit "tt1") (Some [FKAction ON_UPDATE DO_NO_ACTION])])]) None None).
Proof. vm_compute. repeat split. Qed.
(** valid syntax: table with foreign key update no_action *)
Example test_13 : gives (lit "database td1; 
			table tt1 { tc1 int, tc2 text }
            table tt2 { tc1 int, tc2 text, foreign_key (tc1) references tt1 (tc1) on_update do no_action,}")
  (Schema (lit "") (lit "td1") (Some [Table (lit "tt1") (Some [Column (lit "tc1") ColInt None; Column (lit "tc2") ColText None]) None None; Table (lit "tt2") (Some [Column (lit "tc1") ColInt None; Column (lit "tc2") ColText None]) None (Some [FKey (Some [(lit "tc1")]) (Some [(lit "tc1")]) (lit "tt1") (Some [FKAction ON_UPDATE DO_NO_ACTION])])]) None None).
Proof. vm_compute. repeat split. Qed.
(** valid syntax: table with foreign key update restrict *)
Example test_14 : gives (lit "database td1; 
			table tt1 { tc1 int, tc2 text }
            table tt2 { tc1 int, tc2 text, foreign_key (tc1) references tt1 (tc1) on_update do restrict}")
  (Schema (lit "") (lit "td1") (Some [Table (lit "tt1") (Some [Column (lit "tc1") ColInt None; Column (lit "tc2") ColText None]) None None; Table (lit "tt2") (Some [Column (lit "tc1") ColInt None; Column (lit "tc2") ColText None]) None (Some [FKey (Some [(lit "tc1")]) (Some [(lit "tc1")]) (lit "tt1") (Some [FKAction ON_UPDATE DO_RESTRICT])])]) None None).
Proof. vm_compute. repeat split. Qed.
(** valid syntax: table with foreign key update set_null *)
Example test_15 : gives (lit "database td1; 
			table tt1 { tc1 int, tc2 text }
            table tt2 { tc1 int, tc2 text, foreign_key (tc1) references tt1 (tc1) on_update do set_null}")
  (Schema (lit "") (lit "td1") (Some [Table (lit "tt1") (Some [Column (lit "tc1") ColInt None; Column (lit "tc2") ColText None]) None None; Table (lit "tt2") (Some [Column (lit "tc1") ColInt None; Column (lit "tc2") ColText None]) None (Some [FKey (Some [(lit "tc1")]) (Some [(lit "tc1")]) (lit "tt1") (Some [FKAction ON_UPDATE DO_SET_NULL])])]) None None).
Proof. vm_compute. repeat split. Qed.
(** valid syntax: table with foreign key update set_default *)
Example test_16 : gives (lit "database td1; 
			table tt1 { tc1 int, tc2 text }
            table tt2 { tc1 int, tc2 text, foreign_key (tc1) references tt1 (tc1) on_update do set_default}")
  (Schema (lit "") (lit "td1") (Some [Table (lit "tt1") (Some [Column (lit "tc1") ColInt None; Column (lit "tc2") ColText None]) None None; Table (lit "tt2") (Some [Column (lit "tc1") ColInt None; Column (lit "tc2") ColText None]) None (Some [FKey (Some [(lit "tc1")]) (Some [(lit "tc1")]) (lit "tt1") (Some [FKAction ON_UPDATE DO_SET_DEFAULT])])]) None None).
Proof. vm_compute. repeat split. Qed.
(** valid syntax: table with foreign key update cascade *)
Example test_17 : gives (lit "database td1; 
			table tt1 { tc1 int, tc2 text }
            table tt2 { tc1 int, tc2 text, foreign_key (tc1) references tt1 (tc1) on_update do cascade}")
  (Schema (lit "") (lit "td1") (Some [Table (lit "tt1") (Some [Column (lit "tc1") ColInt None; Column (lit "tc2") ColText None]) None None; Table (lit "tt2") (Some [Column (lit "tc1") ColInt None; Column (lit "tc2") ColText None]) None (Some [FKey (Some [(lit "tc1")]) (Some [(lit "tc1")]) (lit "tt1") (Some [FKAction ON_UPDATE DO_CASCADE])])]) None None).
Proof. vm_compute. repeat split. Qed.
(** valid syntax: table with foreign key delete no_action *)
Example test_18 : gives (lit "database td1; 
			table tt1 { tc1 int, tc2 text }
            table tt2 { tc1 int, tc2 text, foreign_key (tc1) references tt1 (tc1) on_delete no_action,}")
  (Schema (lit "") (lit "td1") (Some [Table (lit "tt1") (Some [Column (lit "tc1") ColInt None; Column (lit "tc2") ColText None]) None None; Table (lit "tt2") (Some [Column (lit "tc1") ColInt None; Column (lit "tc2") ColText None]) None (Some [FKey (Some [(lit "tc1")]) (Some [(lit "tc1")]) (lit "tt1") (Some [FKAction ON_DELETE DO_NO_ACTION])])]) None None).
Proof. vm_compute. repeat split. Qed.
(** valid syntax: table with foreign key delete restrict *)
Example test_19 : gives (lit "database td1; 
			table tt1 { tc1 int, tc2 text }
            table tt2 { tc1 int, tc2 text, foreign_key (tc1) references tt1 (tc1) on_delete restrict}")
  (Schema (lit "") (lit "td1") (Some [Table (lit "tt1") (Some [Column (lit "tc1") ColInt None; Column (lit "tc2") ColText None]) None None; Table (lit "tt2") (Some [Column (lit "tc1") ColInt None; Column (lit "tc2") ColText None]) None (Some [FKey (Some [(lit "tc1")]) (Some [(lit "tc1")]) (lit "tt1") (Some [FKAction ON_DELETE DO_RESTRICT])])]) None None).
Proof. vm_compute. repeat split. Qed.
(** valid syntax: table with foreign key delte set_null *)
Example test_20 : gives (lit "database td1; 
			table tt1 { tc1 int, tc2 text }
            table tt2 { tc1 int, tc2 text, foreign_key (tc1) references tt1 (tc1) on_delete set_null}")
  (Schema (lit "") (lit "td1") (Some [Table (lit "tt1") (Some [Column (lit "tc1") ColInt None; Column (lit "tc2") ColText None]) None None; Table (lit "tt2") (Some [Column (lit "tc1") ColInt None; Column (lit "tc2") ColText None]) None (Some [FKey (Some [(lit "tc1")]) (Some [(lit "tc1")]) (lit "tt1") (Some [FKAction ON_DELETE DO_SET_NULL])])]) None None).
Proof. vm_compute. repeat split. Qed.
(** valid syntax: table with foreign key delete set_default *)
Example test_21 : gives (lit "database td1; 
			table tt1 { tc1 int, tc2 text }
            table tt2 { tc1 int, tc2 text, foreign_key (tc1) references tt1 (tc1) on_delete set_default}")
  (Schema (lit "") (lit "td1") (Some [Table (lit "tt1") (Some [Column (lit "tc1") ColInt None; Column (lit "tc2") ColText None]) None None; Table (lit "tt2") (Some [Column (lit "tc1") ColInt None; Column (lit "tc2") ColText None]) None (Some [FKey (Some [(lit "tc1")]) (Some [(lit "tc1")]) (lit "tt1") (Some [FKAction ON_DELETE DO_SET_DEFAULT])])]) None None).
Proof. vm_compute. repeat split. Qed.
(** valid syntax: table with foreign key delete cascade *)
Example test_22 : gives (lit "database td1; 
			table tt1 { tc1 int, tc2 text }
            table tt2 { tc1 int, tc2 text, foreign_key (tc1) references tt1 (tc1) on_delete cascade}")
  (Schema (lit "") (lit "td1") (Some [Table (lit "tt1") (Some [Column (lit "tc1") ColInt None; Column (lit "tc2") ColText None]) None None; Table (lit "tt2") (Some [Column (lit "tc1") ColInt None; Column (lit "tc2") ColText None]) None (Some [FKey (Some [(lit "tc1")]) (Some [(lit "tc1")]) (lit "tt1") (Some [FKAction ON_DELETE DO_CASCADE])])]) None None).
Proof. vm_compute. repeat split. Qed.
(** valid syntax: table with foreign key two actions *)
Example test_23 : gives (lit "database td1; 
			table tt1 { tc1 int, tc2 text }
            table tt2 { tc1 int, tc2 text, foreign_key (tc1) references tt1 (tc1) on_delete cascade on_update restrict}")
  (Schema (lit "") (lit "td1") (Some [Table (lit "tt1") (Some [Column (lit "tc1") ColInt None; Column (lit "tc2") ColText None]) None None; Table (lit "tt2") (Some [Column (lit "tc1") ColInt None; Column (lit "tc2") ColText None]) None (Some [FKey (Some [(lit "tc1")]) (Some [(lit "tc1")]) (lit "tt1") (Some [FKAction ON_DELETE DO_CASCADE; FKAction ON_UPDATE DO_RESTRICT])])]) None None).
Proof. vm_compute. repeat split. Qed.
(** valid syntax: table with mixed foreign key and index *)
Example test_24 : gives (lit "database td1;
			table tt1 {
				tc1 int, tc2 text,
				#idx1 primary (tc1,tc2),
				foreign_key (tc1) references tt1 (tc1) on_delete cascade on_update restrict,
				#idx2 primary (tc1,tc2),
		}")
  (Schema (lit "") (lit "td1") (Some [Table (lit "tt1") (Some [Column (lit "tc1") ColInt None; Column (lit "tc2") ColText None]) (Some [Index (lit "idx1") (Some [(lit "tc1"); (lit "tc2")]) IdxPrimary; Index (lit "idx2") (Some [(lit "tc1"); (lit "tc2")]) IdxPrimary]) (Some [FKey (Some [(lit "tc1")]) (Some [(lit "tc1")]) (lit "tt1") (Some [FKAction ON_DELETE DO_CASCADE; FKAction ON_UPDATE DO_RESTRICT])])]) None None).
Proof. vm_compute. repeat split. Qed.
(** valid syntax: action with view *)
Example test_25 : gives (lit "database td1; table tt1 { tc1 int, tc2 text }
			action act1() public view { insert into tt1 (tc1, tc2) values (1, ""2""); }")
  (Schema (lit "") (lit "td1") (Some [Table (lit "tt1") (Some [Column (lit "tc1") ColInt None; Column (lit "tc2") ColText None]) None None]) (Some [Action (lit "act1") None None true MutabilityView None (Some [(lit "insert into tt1 (tc1, tc2) values (1, ""2"");")])]) None).
Proof. vm_compute. repeat split. Qed.
(** valid syntax: action with owner *)
Example test_26 : gives (lit "database td1; table tt1 { tc1 int, tc2 text }
			action act1() public owner { insert into tt1 (tc1, tc2) values (1, ""2""); }")
  (Schema (lit "") (lit "td1") (Some [Table (lit "tt1") (Some [Column (lit "tc1") ColInt None; Column (lit "tc2") ColText None]) None None]) (Some [Action (lit "act1") None None true MutabilityUpdate (Some [AuxOwner]) (Some [(lit "insert into tt1 (tc1, tc2) values (1, ""2"");")])]) None).
Proof. vm_compute. repeat split. Qed.
(** valid syntax: action with all auxiliaries *)
Example test_27 : gives (lit "database td1; table tt1 { tc1 int, tc2 text }
			action act1() public owner { insert into tt1 (tc1, tc2) values (1, ""2""); }")
  (Schema (lit "") (lit "td1") (Some [Table (lit "tt1") (Some [Column (lit "tc1") ColInt None; Column (lit "tc2") ColText None]) None None]) (Some [Action (lit "act1") None None true MutabilityUpdate (Some [AuxOwner]) (Some [(lit "insert into tt1 (tc1, tc2) values (1, ""2"");")])]) None).
Proof. vm_compute. repeat split. Qed.
(** valid syntax: action with sql insert *)
Example test_28 : gives (lit "database td1; table tt1 { tc1 int, tc2 text }
			action act1() public { insert into tt1 (tc1, tc2) values (1, ""2""); }")
  (Schema (lit "") (lit "td1") (Some [Table (lit "tt1") (Some [Column (lit "tc1") ColInt None; Column (lit "tc2") ColText None]) None None]) (Some [Action (lit "act1") None None true MutabilityUpdate None (Some [(lit "insert into tt1 (tc1, tc2) values (1, ""2"");")])]) None).
Proof. vm_compute. repeat split. Qed.
(** valid syntax: action with sql update *)
Example test_29 : gives (lit "database td1; table tt1 { tc1 int, tc2 text }
			action act1() public { update tt1 set tc1 = 1, tc2 = ""2"" where tc1 = 1; }")
  (Schema (lit "") (lit "td1") (Some [Table (lit "tt1") (Some [Column (lit "tc1") ColInt None; Column (lit "tc2") ColText None]) None None]) (Some [Action (lit "act1") None None true MutabilityUpdate None (Some [(lit "update tt1 set tc1 = 1, tc2 = ""2"" where tc1 = 1;")])]) None).
Proof. vm_compute. repeat split. Qed.
(** valid syntax: action with sql delete *)
Example test_30 : gives (lit "database td1; table tt1 { tc1 int, tc2 text }
			action act1() public { delete from tt1 where tc1 = 1; }")
  (Schema (lit "") (lit "td1") (Some [Table (lit "tt1") (Some [Column (lit "tc1") ColInt None; Column (lit "tc2") ColText None]) None None]) (Some [Action (lit "act1") None None true MutabilityUpdate None (Some [(lit "delete from tt1 where tc1 = 1;")])]) None).
Proof. vm_compute. repeat split. Qed.
(** valid syntax: action with sql select *)
Example test_31 : gives (lit "database td1; table tt1 { tc1 int, tc2 text }
			action act1($var1) public { select * from tt1 where tc1 = $var1; }")
  (Schema (lit "") (lit "td1") (Some [Table (lit "tt1") (Some [Column (lit "tc1") ColInt None; Column (lit "tc2") ColText None]) None None]) (Some [Action (lit "act1") None (Some [(lit "$var1")]) true MutabilityUpdate None (Some [(lit "select * from tt1 where tc1 = $var1;")])]) None).
Proof. vm_compute. repeat split. Qed.
(** valid syntax: action with sql private *)
Example test_32 : gives (lit "database td1; table tt1 { tc1 int, tc2 text }
			action act1($var1) private { select * from tt1 where tc1 = $var1; }")
  (Schema (lit "") (lit "td1") (Some [Table (lit "tt1") (Some [Column (lit "tc1") ColInt None; Column (lit "tc2") ColText None]) None None]) (Some [Action (lit "act1") None (Some [(lit "$var1")]) false MutabilityUpdate None (Some [(lit "select * from tt1 where tc1 = $var1;")])]) None).
Proof. vm_compute. repeat split. Qed.
(** valid syntax: action with multi sql statements *)
Example test_33 : gives (lit "database td1; table tt1 { tc1 int, tc2 text }
			action act1($var1) private { select * from tt1 where tc1 = 2;
										 select * from tt1 where tc1 = $var1; }")
  (Schema (lit "") (lit "td1") (Some [Table (lit "tt1") (Some [Column (lit "tc1") ColInt None; Column (lit "tc2") ColText None]) None None]) (Some [Action (lit "act1") None (Some [(lit "$var1")]) false MutabilityUpdate None (Some [(lit "select * from tt1 where tc1 = 2;"); (lit "select * from tt1 where tc1 = $var1;")])]) None).
Proof. vm_compute. repeat split. Qed.
(** valid syntax: action with action call refer to block variable *)
Example test_34 : gives (lit "database td1; table tt1 { tc1 int, tc2 text }
			action act1($var1, $var2, $var3) private 
			{ select * from tt1 where tc1 = $var1 or tc2 = $var2 or tc2 = $var3; }
			action act2() private 
			{ act1(@caller, 'a', 'b'); }")
  (Schema (lit "") (lit "td1") (Some [Table (lit "tt1") (Some [Column (lit "tc1") ColInt None; Column (lit "tc2") ColText None]) None None]) (Some [Action (lit "act1") None (Some [(lit "$var1"); (lit "$var2"); (lit "$var3")]) false MutabilityUpdate None (Some [(lit "select * from tt1 where tc1 = $var1 or tc2 = $var2 or tc2 = $var3;")]); Action (lit "act2") None None false MutabilityUpdate None (Some [(lit "act1(@caller,'a','b');")])]) None).
Proof. vm_compute. repeat split. Qed.
(** valid syntax: action with extension call refer to block variable *)
Example test_35 : gives (lit "database td1;
			use a_ext{addr: '0x0000', seed: 3} as ext1;
			table tt1 { tc1 int, tc2 text }
			action act2() private 
			{ $v = ext1.call(@caller, 'a', 'b'); }")
  (Schema (lit "") (lit "td1") (Some [Table (lit "tt1") (Some [Column (lit "tc1") ColInt None; Column (lit "tc2") ColText None]) None None]) (Some [Action (lit "act2") None None false MutabilityUpdate None (Some [(lit "$v=ext1.call(@caller,'a','b');")])]) (Some [Extension (lit "a_ext") (Some [ExtConfig (lit "addr") (lit "'0x0000'"); ExtConfig (lit "seed") (lit "3")]) (lit "ext1")])).
Proof. vm_compute. repeat split. Qed.
(** valid syntax: action with extension call using scalar function *)
Example test_36 : gives (lit "database td1;
			use a_ext{addr: '0x0000', seed: 3} as ext1;
			table tt1 { tc1 int, tc2 text }
			action act2($a) private
			{ $v = ext1.call(2, '3', $a, @caller, -2, 1 + - 2, (1 * 2) + 3, 1 <= 2, 1 and $a, lower(@caller), upper(@caller)); }")
  (Schema (lit "") (lit "td1") (Some [Table (lit "tt1") (Some [Column (lit "tc1") ColInt None; Column (lit "tc2") ColText None]) None None]) (Some [Action (lit "act2") None (Some [(lit "$a")]) false MutabilityUpdate None (Some [(lit "$v=ext1.call(2,'3',$a,@caller,-2,1+-2,(1*2)+3,1<=2,1and$a,lower(@caller),upper(@caller));")])]) (Some [Extension (lit "a_ext") (Some [ExtConfig (lit "addr") (lit "'0x0000'"); ExtConfig (lit "seed") (lit "3")]) (lit "ext1")])).
Proof. vm_compute. repeat split. Qed.
(** valid syntax: action with annotation *)
Example test_37 : gives (lit "database td1;
		    @you(speak='english',  level=2)
            @you(speak='english', level=6)
            action act1() public { select *; }
			")
  (Schema (lit "") (lit "td1") None (Some [Action (lit "act1") (Some [(lit "you(speak='english',level=2)"); (lit "you(speak='english',level=6)")]) None true MutabilityUpdate None (Some [(lit "select *;")])]) None).
Proof. vm_compute. repeat split. Qed.
(** valid syntax: with init *)
Example test_38 : gives (lit "database td1; table tt1 { tc1 int, tc2 text }
				  init() { insert into tt1 values (1, '2'); }")
  (Schema (lit "") (lit "td1") (Some [Table (lit "tt1") (Some [Column (lit "tc1") ColInt None; Column (lit "tc2") ColText None]) None None]) (Some [Action (lit "init") None None false MutabilityUpdate None (Some [(lit "insert into tt1 values (1, '2');")])]) None).
Proof. vm_compute. repeat split. Qed.
(** valid syntax: with init and actions *)
Example test_39 : gives (lit "database td1;
				use a_ext{addr: '0x0000', seed: 3} as ext1;
 				table tt1 { tc1 int }
				action act1($var1) private { select * from tt1 where tc1 = $var1; }
				init() {
					act1(1);
					$v = ext1.call(@caller);
					insert into tt1 values ($v);
				}")
  (Schema (lit "") (lit "td1") (Some [Table (lit "tt1") (Some [Column (lit "tc1") ColInt None]) None None]) (Some [Action (lit "act1") None (Some [(lit "$var1")]) false MutabilityUpdate None (Some [(lit "select * from tt1 where tc1 = $var1;")]); Action (lit "init") None None false MutabilityUpdate None (Some [(lit "act1(1);"); (lit "$v=ext1.call(@caller);"); (lit "insert into tt1 values ($v);")])]) (Some [Extension (lit "a_ext") (Some [ExtConfig (lit "addr") (lit "'0x0000'"); ExtConfig (lit "seed") (lit "3")]) (lit "ext1")])).
Proof. vm_compute. repeat split. Qed.
(** invalid syntax: invalid parameter *)
Example test_40 : complains (lit "database td1; table tt1 { tc1 int, tc2 text }
			action act1($1) private { select * from tt1; }") InvalidSyntax.
Proof. vm_compute. repeat split. Qed.
(** invalid syntax: use keyword as database name *)
Example test_41 : complains (lit "database database; table tt1 { tc1 int, tc2 text }") InvalidSyntax.
Proof. vm_compute. repeat split. Qed.
(** invalid syntax: use keyword as table name *)
Example test_42 : complains (lit "database td1; table table { tc1 int, tc2 text }") InvalidSyntax.
Proof. vm_compute. repeat split. Qed.
(** invalid syntax: use keyword as column name *)
Example test_43 : complains (lit "database td1; table tt1 { select int, tc2 text }") InvalidSyntax.
Proof. vm_compute. repeat split. Qed.
(** invalid syntax: use keyword as action name *)
Example test_44 : complains (lit "database td1; table tt1 { tc1 int, tc2 text }
					action select() public { select * from tt1; }") InvalidSyntax.
Proof. vm_compute. repeat split. Qed.
(** invalid syntax: action sql without semicolon *)
Example test_45 : complains (lit "database td1; table tt1 { tc1 int, tc2 text }
                   action act1() public { select * from tt1 }") InvalidSyntax.
Proof. vm_compute. repeat split. Qed.
(** invalid syntax: extension without alias *)
Example test_46 : complains (lit "database td; use a_ext{addr: '0x0000', seed: 3};") InvalidSyntax.
Proof. vm_compute. repeat split. Qed.
(** invalid syntax: use double quote for string *)
Example test_47 : complains (lit "database td; use a_ext{addr: ""0x0000"", seed: 3} ax ext1;") InvalidSyntax.
Proof. vm_compute. repeat split. Qed.
(** invalid semantic: attr min for text column *)
Example test_48 : complains (lit "database td1; table tt1 { tc1 text min(10)}") AttributeNotAllow.
Proof. vm_compute. repeat split. Qed.
(** invalid semantic: attr max for text column *)
Example test_49 : complains (lit "database td1; table tt1 { tc1 text max(10)}") AttributeNotAllow.
Proof. vm_compute. repeat split. Qed.
(** invalid semantic: attr minlen for int column *)
Example test_50 : complains (lit "database td1; table tt1 { tc1 int minlen(10)}") AttributeNotAllow.
Proof. vm_compute. repeat split. Qed.
(** invalid semantic: attr maxlen for int column *)
Example test_51 : complains (lit "database td1; table tt1 { tc1 int maxlen(10)}") AttributeNotAllow.
Proof. vm_compute. repeat split. Qed.
(** invalid semantic: dup table *)
Example test_52 : complains (lit "database td1; table tt1 { tc1 int, tc2 text } table tt1 { tc1 int, tc2 text }") DuplicateTable.
Proof. vm_compute. repeat split. Qed.
(** invalid semantic: dup extension *)
Example test_53 : complains (lit "database td1; use erc20 as token; use erc712 as token;") DuplicateExtension.
Proof. vm_compute. repeat split. Qed.
(** invalid semantic: dup column *)
Example test_54 : complains (lit "database td1; table tt1 { tc1 int, tc2 text, tc1 int }") DuplicateColumn.
Proof. vm_compute. repeat split. Qed.
(** invalid semantic: dup attribute *)
Example test_55 : complains (lit "database td1; table tt1 { tc1 int primary primary,}") DuplicateAttribute.
Proof. vm_compute. repeat split. Qed.
(** invalid semantic: dup index *)
Example test_56 : complains (lit "database td1; table tt1 { tc1 int, tc2 text, #idx1 index(tc1), #idx1 index(tc2) }") DuplicateIndex.
Proof. vm_compute. repeat split. Qed.
(** invalid semantic: dup action *)
Example test_57 : complains (lit "database td1; action act1() public {select * from tt1;} action act1() public {select * from tt1;}") DuplicateAction.
Proof. vm_compute. repeat split. Qed.
(** invalid semantic: dup parameter *)
Example test_58 : complains (lit "database td1; action act1($var1, $var1) public {select * from tt1;}") DuplicateParam.
Proof. vm_compute. repeat split. Qed.
(** invalid semantic: dup on-action for foreieng key *)
Example test_59 : complains (lit "database td1; 
			table tt1 { tc1 int, tc2 text }
            table tt2 { tc1 int, tc2 text, 
					    fk (tc1) ref tt1 (tc1) on_delete do cascade on_delete do restrict}") DupFKAction.
Proof. vm_compute. repeat split. Qed.
(** invalid semantic: dup variable *)
Example test_60 : complains (lit "database td1; use erc20 as token; action act2($param) public { $var1, $var1 = token.balanceOf($param); }") DuplicateVariable.
Proof. vm_compute. repeat split. Qed.
(** invalid semantic: table not found in fk *)
Example test_61 : complains (lit "database td1; 
            table tt2 { tc1 int, tc2 text, 
					    fk (tc1) ref tt1 (tc1) on_delete cascade}") TableNotFound.
Proof. vm_compute. repeat split. Qed.
(** invalid semantic: column not found in index *)
Example test_62 : complains (lit "database td1; table tt1 { tc1 int, #idx1 index(tc2)}") ColumnNotFound.
Proof. vm_compute. repeat split. Qed.
(** invalid semantic: column not found in fk child keys *)
Example test_63 : complains (lit "database td1; table tt1 { tc1 int, tc2 text } table tt2 { tc1 int, tc2 text, fk (tc3) ref tt1 (tc1) on_delete cascade }") ColumnNotFound.
Proof. vm_compute. repeat split. Qed.
(** invalid semantic: column not found in fk parent keys *)
Example test_64 : complains (lit "database td1; table tt1 { tc1 int, tc2 text } table tt2 { tc1 int, tc2 text, fk (tc1) ref tt1 (tc3) on_delete cascade }") ColumnNotFound.
Proof. vm_compute. repeat split. Qed.
(** invalid semantic: action not found *)
Example test_65 : complains (lit "database td1; action act2() public { act1(); }") ActionNotFound.
Proof. vm_compute. repeat split. Qed.
(** invalid semantic: variable not found in action call *)
Example test_66 : complains (lit "database td1; action act1($name) public {select *;}  action act2() public { act1($nondefined); }") VariableNotFound.
Proof. vm_compute. repeat split. Qed.
(** invalid semantic: variable not found in extension call *)
Example test_67 : complains (lit "database td1; use erc20 as token; action act2() public { $var1 = token.balanceOf($nondefined); }") VariableNotFound.
Proof. vm_compute. repeat split. Qed.
(** invalid semantic: block variable not found in action call *)
Example test_68 : complains (lit "database td1; action act1($name) public {select *;} action act2() public { act1(@nondefined); }") VariableNotFound.
Proof. vm_compute. repeat split. Qed.
(** invalid semantic: block variable not found in extension call *)
Example test_69 : complains (lit "database td1; use erc20 as token; action act2() public { $var1 = token.balanceOf(@nondefined); }") VariableNotFound.
Proof. vm_compute. repeat split. Qed.
(** invalid semantic: extension not found *)
Example test_70 : complains (lit "database td1; use erc20 as token; action act2($param) public { $var1, $var1 = erc.balanceOf($param); }") ExtensionNotFound.
Proof. vm_compute. repeat split. Qed.
(** invalid semantic: action visibility already set *)
Example test_71 : complains (lit "database td1; action act1() public private { select *; }") VisibilityAlreadySet.
Proof. vm_compute. repeat split. Qed.
(** invalid semantic: action visibility already set 2 *)
Example test_72 : complains (lit "database td1; action act1() public public { select *; }") VisibilityAlreadySet.
Proof. vm_compute. repeat split. Qed.
(** invalid semantic: action mutability already set *)
Example test_73 : complains (lit "database td1; action act1() view public view { select *; }") MutabilityAlreadySet.
Proof. vm_compute. repeat split. Qed.
(** invalid semantic: action auxiliary already set *)
Example test_74 : complains (lit "database td1; action act1() owner view public owner { select *; }") AuxiliaryAlreadySet.
Proof. vm_compute. repeat split. Qed.
(** annotation: empty *)
Example test_75 : parse_annotation (lit "") = AnnErr.
Proof. vm_compute. repeat split. Qed.
(** annotation: invalid not complete *)
Example test_76 : parse_annotation (lit "t") = AnnErr.
Proof. vm_compute. repeat split. Qed.
(** annotation: invalid missing parenthesis *)
Example test_77 : parse_annotation (lit "t(a=1") = AnnErr.
Proof. vm_compute. repeat split. Qed.
(** annotation: single int *)
Example test_78 : parse_annotation (lit "t(a=1)") = AnnOk (AnnotationValue (lit "t") [(lit "a", lit "1")]).
Proof. vm_compute. repeat split. Qed.
(** annotation: single string *)
Example test_79 : parse_annotation (lit "t(a='1')") = AnnOk (AnnotationValue (lit "t") [(lit "a", lit "'1'")]).
Proof. vm_compute. repeat split. Qed.
(** annotation: multiple int and string *)
Example test_80 : parse_annotation (lit "t(a=1,b='1',c=323,d='whatever')") = AnnOk (AnnotationValue (lit "t") [(lit "a", lit "1"); (lit "b", lit "'1'"); (lit "c", lit "323"); (lit "d", lit "'whatever'")]).
Proof. vm_compute. repeat split. Qed.
(** annotation: multiple int and string with random space *)
Example test_81 : parse_annotation (lit "t(a= 1, b='1',c =323,d = 'whatever' )") = AnnOk (AnnotationValue (lit "t") [(lit "a", lit "1"); (lit "b", lit "'1'"); (lit "c", lit "323"); (lit "d", lit "'whatever'")]).
Proof. vm_compute. repeat split. Qed.
