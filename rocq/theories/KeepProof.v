(** Nothing is lost and nothing is invented (C69). *)
From Coq Require Import Permutation Lia.
From Verif Require Import Tokens LexSpec Schema Grammar Denote KeepSpec.

Lemma sw_nil : says_words [] [].
Proof. exists []. repeat split; constructor. Qed.
Lemma sw_app u v l k : says_words u l -> says_words v k -> says_words (u ++ v) (l ++ k).
Proof.
  intros (cs & -> & F & P) (ds & -> & G & Q). exists (cs ++ ds). split; [symmetry; apply concat_app|]. split; [apply Forall_app; split; assumption|]. rewrite flat_map_app. apply Permutation_app; assumption.
Qed.
Lemma sw_perm u l k : Permutation l k -> says_words u l -> says_words u k.
Proof. intros P (cs & E & F & Q). exists cs. split; [exact E|]. split; [exact F|]. eapply Permutation_trans; eassumption. Qed.
Lemma sw_one x : says_words [x] (if free_word (ty x) then [tx x] else []).
Proof. exists [[x]]. split; [reflexivity|]. split; [constructor; [left; eauto|constructor]|]. cbn. rewrite app_nil_r. reflexivity. Qed.
Lemma sw_fixed x ts l : free_word (ty x) = false -> says_words ts l -> says_words (x :: ts) l.
Proof. intros E H. pose proof (sw_one x) as G. rewrite E in G. apply (sw_app [x] ts [] l G H). Qed.
Lemma sw_free x ts l : free_word (ty x) = true -> says_words ts l -> says_words (x :: ts) (tx x :: l).
Proof. intros E H. pose proof (sw_one x) as G. rewrite E in G. apply (sw_app [x] ts [tx x] l G H). Qed.
Lemma sw_series {A} (D : A -> list tok -> Prop) W l ts : (forall a ts, D a ts -> says_words ts (W a)) -> series D l ts -> says_words ts (flat_map W l).
Proof. intros K H. induction H; [apply sw_nil|]. apply sw_app; auto. Qed.
Lemma sw_listed {A} (D : A -> list tok -> Prop) W l ts : (forall a ts, D a ts -> says_words ts (W a)) -> listed D l ts -> says_words ts (flat_map W l).
Proof. intros K H. induction H; cbn [flat_map]; [rewrite app_nil_r; auto|]. apply sw_app; [auto|]. apply sw_fixed; [reflexivity|assumption]. Qed.
Lemma flat_one l : flat_map (fun n : str => [n]) l = l.
Proof. induction l; cbn; congruence. Qed.
Lemma sw_names l ts : listed w_name l ts -> says_words ts l.
Proof. intros H. rewrite <- (flat_one l). eapply sw_listed; [|exact H]. intros a ? ->. apply (sw_free (Tok IDENTIFIER a) [] []); [reflexivity|apply sw_nil]. Qed.
Lemma sw_params l ts : listed w_param l ts -> says_words ts l.
Proof. intros H. rewrite <- (flat_one l). eapply sw_listed; [|exact H]. intros a ? ->. apply (sw_free (Tok PARAM_OR_VAR a) [] []); [reflexivity|apply sw_nil]. Qed.
Lemma sw_value v ts : w_value v ts -> says_words ts [v].
Proof. intros [-> | ->]; [apply (sw_free (Tok UNSIGNED_NUMBER_LITERAL v) [] [])|apply (sw_free (Tok STRING_LITERAL v) [] [])]; try reflexivity; apply sw_nil. Qed.
Lemma elems_slice {A} (l : list A) s : slice_of l s -> elems s = l.
Proof. intros [(-> & ->)|(_ & ->)]; reflexivity. Qed.
Ltac one := first [apply sw_fixed; [reflexivity|] | (match goal with |- says_words (Tok ?t ?n :: ?ts) (?n :: ?l) => apply (sw_free (Tok t n) ts l); [reflexivity|] end)].
Ltac fin := rewrite <- ?app_assoc; cbn [app]; repeat one; try apply sw_nil.
Lemma sw_end u l x : free_word (ty x) = false -> says_words u l -> says_words (u ++ [x]) l.
Proof. intros E H. rewrite <- (app_nil_r l). apply sw_app; [exact H|]. apply sw_fixed; [exact E|apply sw_nil]. Qed.

Lemma sw_attribute a ts : w_attribute a ts -> says_words ts (attribute_words a).
Proof. intros [| | |v w Hv|n|n|n|n]; unfold in_parens, attribute_words; cbn [at_value]; fin. apply sw_end; [reflexivity|apply sw_value; exact Hv]. Qed.
Lemma sw_column c ts : w_column c ts -> says_words ts (column_words c).
Proof.
  intros [n ty t l s u Ht Hl Hs]. unfold column_words. cbn [co_name co_attrs]. rewrite (elems_slice _ _ Hs). cbn [app]. one.
  destruct Ht; cbn [app]; one; eapply sw_series; try exact Hl; exact sw_attribute.
Qed.
Lemma sw_index i ts : w_index i ts -> says_words ts (index_words i).
Proof. intros [n k t l u Ht Hl]. unfold index_words. cbn [ix_name ix_cols elems]. cbn [app]. one. destruct Ht; cbn [app]; one; one; (apply sw_end; [reflexivity|apply sw_names; exact Hl]). Qed.
Lemma sw_fkaction a ts : w_fkaction a ts -> says_words ts [].
Proof. intros [on_ do_ t o u Ht Ho Hu]. destruct Ht, Ho as [-> | ->], Hu; fin. Qed.
Lemma flat_none {A} (l : list A) : flat_map (fun _ => []) l = ([] : list str).
Proof. induction l; auto. Qed.
Lemma sw_fkey f ts : w_fkey f ts -> says_words ts (fkey_words f).
Proof.
  intros [k r ch tc t pa tp acts sacts ta Hk Hr Hc Hp Ha Hs]. unfold fkey_words, in_parens. cbn [fk_child fk_table fk_parent elems]. rewrite <- !app_assoc. cbn [app].
  apply sw_fixed; [destruct Hk as [-> | ->]; reflexivity|]. one. apply sw_app; [apply sw_names; exact Hc|]. one. apply sw_fixed; [destruct Hr as [-> | ->]; reflexivity|]. one. one.
  rewrite <- (app_nil_r pa). apply sw_app; [apply sw_names; exact Hp|]. one. rewrite <- (flat_none acts). eapply sw_series; [|exact Ha]. exact sw_fkaction.
Qed.
Lemma sw_members is fs ts : w_members is fs ts -> says_words ts (flat_map index_words is ++ flat_map fkey_words fs).
Proof.
  intros H. induction H as [|i t is fs u Hi Hm IH|f t is fs u Hf Hm IH]; [apply sw_nil| |]; one.
  - cbn [flat_map]. rewrite <- app_assoc. apply sw_app; [apply sw_index; exact Hi|exact IH].
  - cbn [flat_map]. eapply sw_perm; [apply Permutation_app_swap_app|]. apply sw_app; [apply sw_fkey; exact Hf|exact IH].
Qed.
Lemma sw_table t ts : w_table t ts -> says_words ts (table_words t).
Proof.
  intros [n cs tc is sis fs sfs tm o Hc Hm Hi Hf Ho]. unfold table_words. cbn [tb_name tb_cols tb_idx tb_fks elems]. rewrite (elems_slice _ _ Hi), (elems_slice _ _ Hf). cbn [app]. one. one. one.
  apply sw_app; [eapply sw_listed; [exact sw_column|exact Hc]|]. rewrite <- (app_nil_r (flat_map index_words is ++ flat_map fkey_words fs)). apply sw_app; [apply sw_members; exact Hm|]. destruct Ho as [-> | ->]; fin.
Qed.
Lemma sw_extension e ts : w_extension e ts -> says_words ts (extension_words e).
Proof.
  intros [n a|n l t a Hl]; unfold extension_words; cbn [ex_name ex_config ex_alias elems flat_map app]; [fin|]. one. one. one. rewrite <- ?app_assoc. apply sw_app; [|fin]. eapply sw_listed; [|exact Hl].
  intros [arg val] v H. inversion H as [? ? ? Hv]; subst. unfold config_words. cbn [ec_arg ec_val app]. one. one. apply sw_value. exact Hv.
Qed.
Lemma seq_inv a b ts : derives (Seq a b) ts -> exists u v, ts = u ++ v /\ derives a u /\ derives b v.
Proof. intros H. inversion H; subst. eauto. Qed.
Lemma r_inv n ts : derives (R n) ts -> derives (rule n) ts.
Proof. intros H. inversion H; subst. assumption. Qed.
Lemma t_inv t ts : derives (T t) ts -> length ts = 1.
Proof. intros H. inversion H; subst. reflexivity. Qed.
Lemma long_chunk ts : 2 <= length ts -> chunk_text ts = [chars ts].
Proof. destruct ts as [|x [|y r]]; cbn; try lia; reflexivity. Qed.
Lemma call_long ts : derives (R call_stmt) ts -> 2 <= length ts.
Proof.
  intros D. apply r_inv in D. cbn [rule] in D. apply seq_inv in D as (u & v & -> & _ & D). apply seq_inv in D as (b & c & -> & D & Dc). apply r_inv in D. cbn [rule] in D. apply seq_inv in D as (b1 & b2 & -> & _ & D). apply seq_inv in D as (b3 & b4 & -> & D & _).
  apply t_inv in D. apply t_inv in Dc. rewrite !app_length. lia.
Qed.
Lemma annotation_long ts : derives (R annotation_decl) ts -> 2 <= length ts.
Proof.
  intros D. apply r_inv in D. cbn [rule] in D. apply seq_inv in D as (u & v & -> & Du & D). apply seq_inv in D as (b & c & -> & D & _). apply r_inv in Du. cbn [rule] in Du. apply t_inv in D. apply t_inv in Du. rewrite !app_length. lia.
Qed.
Lemma sw_stmt st ts : w_stmt st ts -> says_words ts [st].
Proof.
  intros H. exists [ts]. split; [cbn; symmetry; apply app_nil_r|]. split; [constructor; [right; left; eauto|constructor]|]. cbn. rewrite app_nil_r. inversion H as [q|u D]; subst.
  - cbn [chunk_text]. unfold chars. cbn. reflexivity.
  - rewrite (long_chunk ts (call_long _ D)). reflexivity.
Qed.
Lemma sw_annotation an ts : w_annotation an ts -> says_words ts [lit "@" ++ an].
Proof.
  intros H. exists [ts]. split; [cbn; symmetry; apply app_nil_r|]. split; [constructor; [right; right; eauto|constructor]|]. destruct H as (D & E). cbn [flat_map]. rewrite app_nil_r. rewrite <- E.
  rewrite (long_chunk ts (annotation_long _ D)). reflexivity.
Qed.
Lemma sw_body l ts : w_body l ts -> says_words ts l.
Proof. intros (_ & H). rewrite <- (flat_one l). eapply sw_series; [|exact H]. exact sw_stmt. Qed.
Lemma sw_words l : attr_words l -> says_words (map fixed l) [].
Proof. intros (H & _). induction H as [|t l Ht H IH]; [apply sw_nil|]. cbn in Ht. destruct Ht as [<-|[<-|[<-|[<-|[]]]]]; cbn [map]; one; exact IH. Qed.
Lemma sw_action a ts : w_action a ts -> says_words ts (action_words a).
Proof.
  intros [n anns sanns tn ins sins ti l pub mut aux body tb Ha Sa Hi Si Hw _ _ _ _ _ Hb]. unfold action_words. cbn [ac_annots ac_name ac_inputs ac_stmts elems]. rewrite (elems_slice _ _ Sa), (elems_slice _ _ Si).
  apply sw_app; [replace (map (fun an => lit "@" ++ an) anns) with (flat_map (fun an => [lit "@" ++ an]) anns) by (clear; induction anns; cbn in *; congruence); eapply sw_series; [|exact Ha]; exact sw_annotation|].
  cbn [app]. one. one. one. apply sw_app; [destruct Hi as [|l0 us Hl|l0 us Hl]; [apply sw_nil|apply sw_params; exact Hl|one; apply sw_params; exact Hl]|].
  one. apply (sw_app _ _ [] body); [apply sw_words; exact Hw|]. one. apply sw_end; [reflexivity|apply sw_body; exact Hb].
Qed.
Lemma sw_init a ts : w_init a ts -> says_words ts (action_words a).
Proof.
  intros [body tb Hb]. unfold action_words. cbn [ac_annots ac_name ac_inputs ac_stmts elems map app]. apply (sw_free (fixed INIT_) _ body); [reflexivity|]. one. one. one. apply sw_end; [reflexivity|apply sw_body; exact Hb].
Qed.
Lemma sw_decls ta ac ini ts : w_decls ta ac ini ts -> says_words ts (flat_map table_words ta ++ flat_map action_words (ac ++ ini)).
Proof.
  intros H. induction H as [|t ts ta ac ini us Ht H IH|a ts ta ac ini us Ht H IH|i ts ta ac us Ht H IH]; [apply sw_nil| | |].
  - cbn [flat_map]. rewrite <- app_assoc. apply sw_app; [apply sw_table; exact Ht|exact IH].
  - cbn [flat_map app]. eapply sw_perm; [apply Permutation_app_swap_app|]. apply sw_app; [apply sw_action; exact Ht|exact IH].
  - rewrite app_nil_r in IH. eapply sw_perm; [|apply sw_app; [apply sw_init; exact Ht|exact IH]]. rewrite flat_map_app. cbn [flat_map]. rewrite app_nil_r.
    eapply Permutation_trans; [apply Permutation_app_comm|]. rewrite <- app_assoc. reflexivity.
Qed.
Lemma sw_schema ts s : denotes ts s -> says_words ts (schema_words s).
Proof.
  intros [n xs sxs tx ta sta ac ini sac td Hx Sx Hd St Sa]. unfold schema_words. cbn [sc_name sc_exts sc_tables sc_actions]. rewrite (elems_slice _ _ Sx), (elems_slice _ _ St), (elems_slice _ _ Sa). cbn [app]. one. one. one.
  apply sw_app; [eapply sw_series; [exact sw_extension|exact Hx]|]. apply sw_decls. exact Hd.
Qed.
