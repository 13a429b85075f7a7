(** Declared names have no meaning of their own: C57. *)
From Verif Require Import LexSpec Grammar Schema Validator ValidSpec ValidProof ValidProof2 ValidProof3 ParseKF ParseSpec ParseProof RenameSpec RenameProof Sample.

Theorem C57_renaming_keeps_validity : forall r x x' s, faithful r -> same_meaning r x x' -> (valid_schema x' (renamed r s) <-> valid_schema x s).
Proof.
  intros r x x' s F M. split; [|apply renamed_valid; assumption]. intros H. destruct (valid_or_invalid x s) as [HV|(z & HI)]; [exact HV|exfalso].
  destruct (renamed_invalid r x x' F M s z HI) as (z' & HI' & _). apply validate_spec in H, HI'. rewrite H in HI'. destruct HI'.
Qed.
Print Assumptions C57_renaming_keeps_validity.
(** An invalid schema keeps its kind of fault. *)
Theorem C57_renaming_keeps_the_fault : forall r x x' s z, faithful r -> same_meaning r x x' -> invalid_schema x s z ->
  exists z', invalid_schema x' (renamed r s) z' /\ same_kind z z'.
Proof. intros r x x' s z F M. apply renamed_invalid; assumption. Qed.
Print Assumptions C57_renaming_keeps_the_fault.
(** So of two texts that differ in the names of things both are accepted or neither is, and the results differ in the names. *)
Theorem C57_renamed_texts : forall r w w' m t t' s, faithful r -> same_meaning r (w_ext w) (w_ext w') -> writes t s -> writes t' (renamed r s) ->
  (parse_kf w t [] m = Outcome (Some s) [] <-> parse_kf w' t' [] m = Outcome (Some (renamed r s)) []).
Proof.
  intros r w w' m t t' s F M Ht Ht'. rewrite !parse_accepts. unfold accepted. rewrite (C57_renaming_keeps_validity r (w_ext w) (w_ext w') s F M). tauto.
Qed.
Print Assumptions C57_renamed_texts.

(** ** The sample with other names *)
Local Open Scope N_scope.
Definition rename_dollar (p : str) : str := match p with 36 :: q => 36 :: (lit "v_" ++ q) | _ => p end.
Definition old_new : list (str * str) :=
  [(lit "insert into users  values ($id, $name);", lit "insert into t_users  values ($v_id, $v_name);");
   (lit "select * from users;", lit "select * from t_users;");
   (lit "$x=token.setup(1);", lit "$v_x=e_token.setup(1);");
   (lit "create($x,'a');", lit "a_create($v_x,'a');")].
Fixpoint assoc (l : list (str * str)) (k : str) : option str := match l with [] => None | (a, b) :: l => if str_eqb k a then Some b else assoc l k end.
Definition new_names : renaming :=
  Renaming (fun n => lit "t_" ++ n) (fun n => lit "m_" ++ n) (fun n => if str_eqb n (lit "init") then n else lit "a_" ++ n)
    (fun n => match n with [] => [] | _ => lit "e_" ++ n end) rename_dollar (fun st => match assoc old_new st with Some u => u | None => 63 :: st end).
Definition old_of (u : str) : str := match assoc (map (fun p => (snd p, fst p)) old_new) u with Some st => st | None => tl u end.
Definition new_world : world :=
  World (Externals (fun u => rename_res new_names (sample_act (old_of u))) (fun u => sample_sql (old_of u)) (fun _ => Ok Datatypes.tt) (fun p => p)) (w_msgs sample_world).
Lemma app_inj (c : str) : injective (fun n => c ++ n). Proof. intros a b. apply app_inv_head. Qed.
Lemma new_names_faithful : faithful new_names.
Proof.
  assert (HD : forall p, (exists q, p = 36 :: q /\ rename_dollar p = 36 :: (lit "v_" ++ q)) \/ (~ starts_with (lit "$") p /\ rename_dollar p = p)).
  { intros [|c p]; [right; split; [intros (q & E); discriminate|reflexivity]|]. destruct (N.eq_dec c 36) as [->|Hc]; [left; exists p; auto|]. right. split.
    - intros (q & E). injection E as E _. contradiction.
    - unfold rename_dollar. destruct c as [|c]; [reflexivity|]. do 6 (destruct c as [c|c|]; try reflexivity). destruct (Hc eq_refl). }
  constructor.
  - apply app_inj.
  - apply app_inj.
  - intros a b. cbn [new_names rn_action]. destruct (str_eqb a (lit "init")) eqn:Ea, (str_eqb b (lit "init")) eqn:Eb; try apply str_eqb_eq in Ea; try apply str_eqb_eq in Eb; subst; intros E;
      [reflexivity|discriminate|discriminate|]. injection E as E. exact E.
  - intros [|a a'] [|b b']; cbn; intros E; [reflexivity|discriminate|discriminate|]. injection E as -> ->. reflexivity.
  - intros a b E. cbn [new_names rn_var] in E. destruct (HD a) as [(q & -> & Ea)|[Ha Ea]], (HD b) as [(q' & -> & Eb)|[Hb Eb]]; rewrite Ea, Eb in E.
    + injection E as E. rewrite E. reflexivity.
    + exfalso. apply Hb. rewrite <- E. eexists. reflexivity.
    + exfalso. apply Ha. rewrite E. eexists. reflexivity.
    + exact E.
  - intros [|a n]; cbn; split; congruence.
  - intros p. cbn [new_names rn_var]. destruct (HD p) as [(q & -> & E)|[H E]]; rewrite E; [|reflexivity]. split; intros _; eexists; reflexivity.
  - intros p. cbn [new_names rn_var]. destruct (HD p) as [(q & -> & E)|[H E]]; rewrite E; [|reflexivity]. split; intros (x & Ex); discriminate.
  - intros p. cbn [new_names rn_var]. destruct (HD p) as [(q & -> & E)|[H E]]; rewrite E; [|reflexivity]. split; intros Ex; discriminate.
Qed.
Lemma old_of_new st : old_of (rn_stmt new_names st) = st.
Proof.
  cbn [new_names rn_stmt]. unfold old_new. cbn [assoc].
  repeat match goal with |- context [if str_eqb st ?k then _ else _] => destruct (str_eqb st k) eqn:?E; [apply str_eqb_eq in E; subst st; vm_compute; reflexivity|clear E] end.
  unfold old_of, old_new. cbn [map fst snd assoc]. reflexivity.
Qed.
Lemma new_world_same : same_meaning new_names (w_ext sample_world) (w_ext new_world).
Proof. intros st. cbn [new_world w_ext act_parse sql_parse to_sql sample_world]. rewrite old_of_new. auto. Qed.
Definition new_text : str := lit "database mydb;
use e_erc20 { address: '0xabc', n: 7 } as e_token;
table t_users { m_id int primary notnull, m_name text maxlen(30) default('x'), #m_idx unique(m_name, m_id) }
table t_posts { m_id int primary, m_uid int, fk (m_uid) ref t_users (m_id) on_delete do cascade, }
@kgw(authn='true')
action a_create($v_id, $v_name) public owner { insert into t_users  values ($v_id, $v_name); }
init() { $v_x = e_token.setup(1); a_create($v_x, 'a'); }
action a_all() view public { select * from t_users; }".
Example C57_case : faithful new_names /\ same_meaning new_names (w_ext sample_world) (w_ext new_world) /\ writes sample_text sample_schema /\
  writes new_text (renamed new_names sample_schema) /\ parse_kf sample_world sample_text [] Default = Outcome (Some sample_schema) [].
Proof.
  split; [exact new_names_faithful|]. split; [exact new_world_same|]. split; [apply (proj1 (parse_accepts sample_world sample_text Default sample_schema)); vm_compute; reflexivity|].
  split; [apply (proj1 (parse_accepts new_world new_text Default (renamed new_names sample_schema))); vm_compute; reflexivity|vm_compute; reflexivity].
Qed.
(** And a fault: an index on a column there is not. *)
Example C57_case_fault : exists s z, invalid_schema (w_ext sample_world) s z /\ z = inl (EWrap (ESent ColumnNotFound) (lit "index(t/b)")) /\
  exists z', invalid_schema (w_ext new_world) (renamed new_names s) z' /\ z' = inl (EWrap (ESent ColumnNotFound) (lit "index(t_t/m_b)")) /\ same_kind z z'.
Proof.
  exists (Schema [] (lit "d") (Some [Table (lit "t") (Some [Column (lit "a") (lit "int") None]) (Some [Index (lit "i") (Some [lit "b"]) (lit "btree")]) None]) None None).
  eexists. split; [|split; [reflexivity|]]; [apply validate_spec; vm_compute; reflexivity|]. eexists. split; [|split; [reflexivity|reflexivity]]. apply validate_spec. vm_compute. reflexivity.
Qed.
