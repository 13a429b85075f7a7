(** A checker for parse trees, to show concrete ones. *)
From Verif Require Import Grammar Tree TreeSpec.

(** What can be left of [cs] after an instance of [e]. *)
Fixpoint rests (f : nat) (e : ebnf) (cs : list tree) : list (list tree) :=
  match f with
  | O => []
  | S f =>
      match e with
      | Nothing => [cs]
      | T t => match cs with Leaf x :: r => if tt_eqb (ty x) t then [r] else [] | _ => [] end
      | R n => match cs with
               | Node m c :: r => if nt_eqb m n && existsb (fun z => match z with [] => true | _ => false end) (rests f (tree_rule n) c) then [r] else []
               | _ => [] end
      | Seq a b => flat_map (rests f b) (rests f a cs)
      | Or a b => rests f a cs ++ rests f b cs
      | Many a => cs :: flat_map (fun r => if Nat.ltb (length r) (length cs) then rests f (Many a) r else []) (rests f a cs)
      end
  end.
Lemma rests_sound f : forall e cs r, In r (rests f e cs) -> exists u, cs = u ++ r /\ spells e u.
Proof.
  induction f as [|f IH]; intros e cs r H; [destruct H|]. cbn [rests] in H. destruct e as [|t|n|a b|a b|a].
  - destruct H as [<-|[]]. exists []. split; [reflexivity|constructor].
  - destruct cs as [|[x| |n c] cs]; try contradiction. destruct (tt_eqb (ty x) t) eqn:E; [|contradiction]. destruct H as [<-|[]]. apply tt_eqb_eq in E.
    exists [Leaf x]. split; [reflexivity|constructor; exact E].
  - destruct cs as [|[x| |m c] cs]; try contradiction. destruct (nt_eqb m n) eqn:E; [|contradiction]. cbn [andb] in H.
    destruct (existsb _ _) eqn:E2; [|contradiction]. destruct H as [<-|[]]. apply existsb_exists in E2 as ([|? ?] & H2 & E2); [|discriminate].
    apply IH in H2 as (u & -> & Hu). rewrite app_nil_r. unfold nt_eqb in E. destruct (nt_eq_dec m n); [subst m|discriminate].
    exists [Node n u]. split; [reflexivity|constructor; exact Hu].
  - apply in_flat_map in H as (r1 & H1 & H2). apply IH in H1 as (u & -> & Hu). apply IH in H2 as (v & -> & Hv).
    exists (u ++ v). split; [apply app_assoc|constructor; assumption].
  - apply in_app_iff in H as [H|H]; apply IH in H as (u & -> & Hu); exists u; (split; [reflexivity|]); [apply s_or1|apply s_or2]; exact Hu.
  - destruct H as [<-|H]; [exists []; split; [reflexivity|constructor]|]. apply in_flat_map in H as (r1 & H1 & H2).
    destruct (Nat.ltb _ _); [|contradiction]. apply IH in H1 as (u & -> & Hu). apply IH in H2 as (v & -> & Hv).
    exists (u ++ v). split; [apply app_assoc|apply s_many1; assumption].
Qed.
Definition is_tree (f : nat) (t : tree) : bool :=
  match t with
  | Node n cs => nt_eqb n source_unit && existsb (fun r => match r with [Eof] => true | _ => false end) (rests f (rule source_unit) cs)
  | _ => false
  end.
Lemma is_tree_sound f t : is_tree f t = true -> parse_tree_of (leaves t) t.
Proof.
  intros H. destruct t as [| |n cs]; try discriminate. cbn [is_tree] in H. apply andb_true_iff in H as [E H]. unfold nt_eqb in E.
  destruct (nt_eq_dec n source_unit); [subst n|discriminate]. apply existsb_exists in H as (r & H & Hr).
  destruct r as [|[| |] [|]]; try discriminate. apply rests_sound in H as (u & -> & Hu). exists u. auto.
Qed.
