(** Concrete texts and a concrete world, used to show that hypotheses of the theorems are met. *)
From Verif Require Import Schema Validator ParseKF ParseSpec ParseProof LexSpec.
Local Open Scope string_scope.

(** An action grammar that knows a few statements: SQL by its first word, and two calls. *)
Definition sample_act (st : str) : res stmt :=
  if mem_str (firstn 6 (lower st)) [lit "select"; lit "insert"; lit "update"; lit "delete"] then Ok Dml
  else if str_eqb st (lit "$x=token.setup(1);") then Ok (ExtCall (lit "token") [AExpr] [lit "$x"])
  else if str_eqb st (lit "create($x,'a');") then Ok (ActionCall (lit "create") [ABind (lit "$x"); AExpr])
  else if str_eqb st (lit "create($y,'a');") then Ok (ActionCall (lit "create") [ABind (lit "$y"); AExpr])
  else Err (ENew (lit "unknown statement")).
Definition sample_sql (st : str) : res unit :=
  if str_eqb st (lit "select broken;") then Err (ENew (lit "bad sql")) else Ok Datatypes.tt.
Definition sample_world : world :=
  World (Externals sample_act sample_sql (fun _ => Ok Datatypes.tt) (fun p => p)) (fun _ => (lit "line 1:0 mismatched input", [])).

Definition sample_text : str := lit "database mydb;
use erc20 { address: '0xabc', n: 7 } as token; // an extension
table users { id int primary notnull, name text maxlen(30) default('x'), #idx unique(name, id) }
table posts { id int primary, uid int, fk (uid) ref users (id) on_delete do cascade, }
/* actions */
@kgw(authn='true')
action create($id, $name) public owner { insert into users  values ($id, $name); }
init() { $x = token.setup(1); create($x, 'a'); }
action all() view public { select * from users; }".

Definition sample_schema : schema :=
  Schema [] (lit "mydb")
    (Some [Table (lit "users")
             (Some [Column (lit "id") (lit "int") (Some [Attribute (lit "primary_key") None; Attribute (lit "not_null") None]);
                    Column (lit "name") (lit "text") (Some [Attribute (lit "max_length") (Some (lit "30")); Attribute (lit "default") (Some (lit "'x'"))])])
             (Some [Index (lit "idx") (Some [lit "name"; lit "id"]) (lit "unique_btree")]) None;
           Table (lit "posts")
             (Some [Column (lit "id") (lit "int") (Some [Attribute (lit "primary_key") None]); Column (lit "uid") (lit "int") None])
             None (Some [FKey (Some [lit "uid"]) (Some [lit "id"]) (lit "users") (Some [FKAction (lit "DELETE") (lit "CASCADE")])])])
    (Some [Action (lit "create") (Some [lit "kgw(authn='true')"]) (Some [lit "$id"; lit "$name"]) true (lit "update") (Some [lit "owner"])
             (Some [lit "insert into users  values ($id, $name);"]);
           Action (lit "all") None None true (lit "view") None (Some [lit "select * from users;"]);
           Action (lit "init") None None false (lit "update") None (Some [lit "$x=token.setup(1);"; lit "create($x,'a');"])])
    (Some [Extension (lit "erc20") (Some [ExtConfig (lit "address") (lit "'0xabc'"); ExtConfig (lit "n") (lit "7")]) (lit "token")]).

Lemma sample_parses m : parse_kf sample_world sample_text [] m = Outcome (Some sample_schema) [].
Proof. destruct m; vm_compute; reflexivity. Qed.
Lemma sample_accepted : accepted sample_world sample_text sample_schema.
Proof. apply (parse_accepts _ _ Default). apply sample_parses. Qed.
Lemma sample_foreign : foreign_world sample_world.
Proof.
  intros st. cbn. unfold sample_act, sample_sql. split; [|split; [|exact I]].
  - destruct (mem_str _ _); [exact I|]. repeat (destruct (str_eqb st _); [exact I|]). intros k; reflexivity.
  - destruct (str_eqb st _); [intros k; reflexivity|exact I].
Qed.

(** Wrong texts, one per kind. *)
Definition no_semicolon : str := lit "database mydb".
Definition two_inits : str := lit "database d; init() { select 1; } init() { select 1; }".
Definition two_views : str := lit "database d; action a() public view view { select 1; }".
Definition two_tables : str := lit "database d; table t { a int } table t { a int }".
Definition min_text : str := lit "database d; table t { a text min(1) }".
Definition broken_sql : str := lit "database d; action a() public { select broken; }".
Definition late_receiver : str := lit "database d; use e as token; action create($a, $b) public { select 1; } action a() public { create($x, 'a'); $x = token.setup(1); }".
