(** Validity does not see the order of the parts. *)
From Coq Require Import Permutation.
From Verif Require Import Schema Validator ValidSpec ShuffleSpec.

Section Mixed. Context {A : Type} (R : A -> A -> Prop).
Lemma mixed_map {B} (f : A -> B) l l' : (forall a b, R a b -> f b = f a) -> mixed R l l' -> Permutation (map f l) (map f l').
Proof.
  intros H (m & P & F). eapply Permutation_trans; [apply Permutation_map; exact P|]. clear P. replace (map f l') with (map f m); [reflexivity|]. induction F; cbn; [reflexivity|]. rewrite (H _ _ H0), IHF. reflexivity.
Qed.
Lemma mixed_back l l' b : mixed R l l' -> In b l' -> exists a, In a l /\ R a b.
Proof.
  intros (m & P & F) Hb. assert (H : exists a, In a m /\ R a b) by (clear P; induction F; [destruct Hb|]; destruct Hb as [->|Hb]; [eexists; split; [left; reflexivity|assumption]|destruct (IHF Hb) as (a & H1 & H2); exists a; split; [right|]; assumption]).
  destruct H as (a & Ha & H). exists a. split; [|exact H]. eapply Permutation_in; [apply Permutation_sym; exact P|exact Ha].
Qed.
Lemma mixed_forth l l' a : mixed R l l' -> In a l -> exists b, In b l' /\ R a b.
Proof.
  intros (m & P & F) Ha. apply (Permutation_in _ P) in Ha. clear P. induction F; [destruct Ha|]. destruct Ha as [->|Ha]; [eexists; split; [left; reflexivity|assumption]|destruct (IHF Ha) as (b & H1 & H2); exists b; split; [right|]; assumption].
Qed.
Lemma mixed_refl l : (forall a, R a a) -> mixed R l l.
Proof. intros H. exists l. split; [reflexivity|]. induction l; constructor; auto. Qed.
Lemma mixed_perm l l' : (forall a, R a a) -> Permutation l l' -> mixed R l l'.
Proof. intros H P. exists l'. split; [exact P|]. clear P. induction l'; constructor; auto. Qed.
Lemma forall2_perm l m l' : Forall2 R l m -> Permutation m l' -> exists k, Permutation l k /\ Forall2 R k l'.
Proof.
  intros F P. revert l F. induction P; intros k F.
  - inversion F; subst. exists []. split; constructor.
  - inversion F as [|a ? k0 ? Ra F0]; subst. destruct (IHP _ F0) as (k' & P' & F'). exists (a :: k'). split; constructor; assumption.
  - inversion F as [|a ? k0 ? Ra F0]; subst. inversion F0 as [|b ? k1 ? Rb F1]; subst. exists (b :: a :: k1). split; [apply perm_swap|]. repeat constructor; assumption.
  - destruct (IHP1 _ F) as (k1 & P1' & F1). destruct (IHP2 _ F1) as (k2 & P2' & F2). exists k2. split; [eapply Permutation_trans; eassumption|exact F2].
Qed.
Lemma mixed_sym l l' : (forall a b, R a b -> R b a) -> mixed R l l' -> mixed R l' l.
Proof.
  intros H (m & P & F). assert (F' : Forall2 R l' m) by (clear P; induction F; constructor; auto). destruct (forall2_perm _ _ _ F' (Permutation_sym P)) as (k & Pk & Fk). exists k. split; assumption.
Qed.
End Mixed.
Lemma mixed_impl {A} (R S : A -> A -> Prop) l l' : (forall a b, R a b -> S a b) -> mixed R l l' -> mixed S l l'.
Proof. intros H (m & P & F). exists m. split; [exact P|]. clear P. induction F; constructor; auto. Qed.

Lemma perm_incl {A} (l l' k : list A) : Permutation l l' -> incl l k -> incl l' k.
Proof. intros P H x Hx. apply H. eapply Permutation_in; [apply Permutation_sym; exact P|exact Hx]. Qed.
Lemma incl_perm {A} (l k k' : list A) : Permutation k k' -> incl l k -> incl l k'.
Proof. intros P H x Hx. eapply Permutation_in; [exact P|]. apply H, Hx. Qed.

Lemma mixed_column_valid c c' : mixed_column c c' -> valid_column c -> valid_column c'.
Proof.
  intros (En & Et & P) (H1 & H2). split; [eapply Permutation_NoDup; [apply Permutation_map; exact P|exact H1]|]. intros a Ha. rewrite Et. apply H2. eapply Permutation_in; [apply Permutation_sym; exact P|exact Ha].
Qed.
Lemma mixed_col_names t t' : mixed_table t t' -> Permutation (col_names t) (col_names t').
Proof. intros (_ & Hc & _). eapply mixed_map; [|exact Hc]. intros a b (E & _). exact E. Qed.
Lemma mixed_idx_names t t' : mixed_table t t' -> Permutation (idx_names (elems (tb_idx t))) (idx_names (elems (tb_idx t'))).
Proof.
  intros (_ & _ & _ & H). assert (M : mixed mixed_index (elems (tb_idx t)) (elems (tb_idx t'))) by (destruct H as [H|[H _]]; [eexists; split; [reflexivity|exact H]|exact H]). eapply mixed_map; [|exact M]. intros a b (E & _). exact E.
Qed.
Lemma mixed_members t t' : mixed_table t t' -> Permutation (members t) (members t').
Proof. intros H. apply Permutation_app; [apply mixed_col_names|apply mixed_idx_names]; exact H. Qed.
Lemma mixed_table_valid t t' : mixed_table t t' -> valid_table t -> valid_table t'.
Proof.
  intros M (H1 & H2 & H3). pose proof (mixed_col_names _ _ M) as Pc. split; [eapply Permutation_NoDup; [apply mixed_members; exact M|exact H1]|]. destruct M as (_ & Hc & _ & Hi). split.
  - apply Forall_forall. intros c' Hc'. destruct (mixed_back _ _ _ _ Hc Hc') as (c & Ic & Rc). eapply mixed_column_valid; [exact Rc|]. rewrite Forall_forall in H2. apply H2, Ic.
  - intros pre i post E. destruct Hi as [F|(Hi & Hk)].
    + rewrite E in F. apply Forall2_app_inv_r in F as (l1 & l2 & F1 & F2 & El). inversion F2 as [|j ? l3 ? Ri F3]; subst. pose proof (H3 _ _ _ El) as G. destruct Ri as (Ei & _ & Pi). rewrite Ei.
      assert (En : idx_names pre = idx_names l1) by (clear -F1; induction F1 as [|a b l m R F IH]; [reflexivity|]; cbn; destruct R as (-> & _); f_equal; exact IH). rewrite En.
      eapply perm_incl; [exact Pi|]. eapply incl_perm; [|exact G]. apply Permutation_app_tail, Pc.
    + destruct (mixed_back _ _ _ i Hi) as (j & Ij & Rj); [rewrite E; apply in_elt|]. destruct Rj as (Ei & _ & Pi). eapply perm_incl; [exact Pi|]. intros x Hx. apply (Hk _ Ij) in Hx. rewrite Ei. apply in_app_iff in Hx as [Hx|Hx]; apply in_app_iff; [left; eapply Permutation_in; eassumption|right; apply in_app_iff; right; exact Hx].
Qed.
Lemma mixed_fk_valid s s' t t' f f' : mixed_schema s s' -> mixed_table t t' -> mixed_fkey f f' -> valid_fk s t f -> valid_fk s' t' f'.
Proof.
  intros (Ms & _) Mt (Et & Pc & Pp & Pa) (H1 & (p & Hp & Hn & Hq) & H3). split; [|split].
  - eapply perm_incl; [exact Pc|]. eapply incl_perm; [apply mixed_members; exact Mt|exact H1].
  - destruct (mixed_forth _ _ _ _ Ms Hp) as (p' & Hp' & Mp). exists p'. split; [exact Hp'|]. split; [destruct Mp as (-> & _); rewrite Et; exact Hn|]. eapply perm_incl; [exact Pp|]. eapply incl_perm; [apply mixed_members; exact Mp|exact Hq].
  - eapply Permutation_NoDup; [apply Permutation_map; exact Pa|exact H3].
Qed.
Lemma args_mono vars vars' args : incl vars vars' -> Forall (arg_ok vars) args -> Forall (arg_ok vars') args.
Proof. intros H F. induction F as [|a l Ha F IH]; constructor; [|exact IH]. destruct a as [p|]; [|exact I]. destruct Ha as (H1 & H2). split; [|exact H2]. intros w E. apply H, (H1 w E). Qed.
Lemma mixed_stmt_ok x s s' vars vars' st : mixed_schema s s' -> incl vars vars' -> stmt_ok x s vars st -> stmt_ok x s' vars' st.
Proof.
  intros (_ & Ma & Me) Hv. unfold stmt_ok. destruct (act_parse x st) as [[|m args|e args recv|]| |]; auto.
  - intros (H & Ha). split; [|eapply args_mono; eassumption]. eapply Permutation_in; [|exact H]. eapply mixed_map; [|exact Ma]. intros a b (E & _). exact E.
  - intros (H & Ha & Hn). split; [|split; [eapply args_mono; eassumption|exact Hn]]. eapply Permutation_in; [|exact H]. eapply mixed_map; [|exact Me]. intros a b (E1 & E2). rewrite E1, E2. reflexivity.
Qed.
Lemma mixed_valid x s s' : mixed_schema s s' -> valid_schema x s -> valid_schema x s'.
Proof.
  intros M [V1 V2 V3 V4 V5 V6 V7]. pose proof M as (Mt & Ma & Me). split.
  - eapply Permutation_NoDup; [|exact V1]. eapply mixed_map; [|exact Me]. intros a b (E1 & E2). rewrite E1, E2. reflexivity.
  - eapply Permutation_NoDup; [|exact V2]. eapply mixed_map; [|exact Mt]. intros a b (E & _). exact E.
  - intros t' Ht'. destruct (mixed_back _ _ _ _ Mt Ht') as (t & Ht & R). eapply mixed_table_valid; [exact R|auto].
  - eapply Permutation_NoDup; [|exact V4]. eapply mixed_map; [|exact Ma]. intros a b (E & _). exact E.
  - intros a' Ha'. destruct (mixed_back _ _ _ _ Ma Ha') as (a & Ha & (_ & P & _)). eapply Permutation_NoDup; [exact P|auto].
  - intros t' f' Ht' Hf'. destruct (mixed_back _ _ _ _ Mt Ht') as (t & Ht & R). pose proof R as (_ & _ & Hf & _). destruct (mixed_back _ _ _ _ Hf Hf') as (f & If & Rf). eapply mixed_fk_valid; eauto.
  - intros a' Ha' pre st post E. destruct (mixed_back _ _ _ _ Ma Ha') as (a & Ha & (_ & P & Es)). rewrite Es in E. eapply mixed_stmt_ok; [exact M| |exact (V7 a Ha pre st post E)]. intros y Hy. apply in_app_iff in Hy as [Hy|Hy]; apply in_app_iff; [left; eapply Permutation_in; eassumption|right; exact Hy].
Qed.
(** The relation goes both ways. *)
Lemma mixed_column_sym c c' : mixed_column c c' -> mixed_column c' c.
Proof. intros (E1 & E2 & P). split; [auto|]. split; [auto|]. apply Permutation_sym, P. Qed.
Lemma mixed_index_sym c c' : mixed_index c c' -> mixed_index c' c.
Proof. intros (E1 & E2 & P). split; [auto|]. split; [auto|]. apply Permutation_sym, P. Qed.
Lemma mixed_fkey_sym c c' : mixed_fkey c c' -> mixed_fkey c' c.
Proof. intros (E1 & P1 & P2 & P3). split; [auto|]. split; [apply Permutation_sym, P1|]. split; apply Permutation_sym; assumption. Qed.
Lemma mixed_table_sym t t' : mixed_table t t' -> mixed_table t' t.
Proof.
  intros M. pose proof (mixed_col_names _ _ M) as Pc. destruct M as (En & Hc & Hf & Hi). split; [auto|]. split; [apply mixed_sym; [exact mixed_column_sym|exact Hc]|]. split; [apply mixed_sym; [exact mixed_fkey_sym|exact Hf]|]. destruct Hi as [F|(Hi & Hk)].
  - left. induction F; constructor; auto using mixed_index_sym.
  - right. split; [apply mixed_sym; [exact mixed_index_sym|exact Hi]|]. intros i Ii. destruct (mixed_back _ _ _ _ Hi Ii) as (j & Ij & (Ei & _ & Pi)). eapply perm_incl; [exact Pi|]. rewrite Ei. eapply incl_perm; [|apply Hk, Ij]. apply Permutation_app_tail, Pc.
Qed.
Lemma mixed_schema_sym s s' : mixed_schema s s' -> mixed_schema s' s.
Proof.
  intros (Mt & Ma & Me). split; [apply mixed_sym; [exact mixed_table_sym|exact Mt]|]. split; (apply mixed_sym; [|assumption]).
  - intros a b (E1 & P & E2). split; [auto|]. split; [apply Permutation_sym, P|auto].
  - intros a b (E1 & E2). split; auto.
Qed.
