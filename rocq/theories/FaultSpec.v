(** The faults of a syntactically correct program that the visitor reports, said on its tokens. *)
From Verif Require Import Tokens Grammar Schema Denote.

(** How many init blocks: one per keyword. *)
Definition ninit (ts : list tok) : nat := length (filter (fun t => tt_eqb (ty t) INIT_) ts).

(** The attribute words of each action: those that follow the closing parenthesis after the keyword "action". *)
Definition is_attr_word (t : tt) : bool := existsb (tt_eqb t) [PUBLIC_; PRIVATE_; VIEW_; OWNER_].
Fixpoint after_r_paren (ts : list tok) : list tok :=
  match ts with [] => [] | t :: r => if tt_eqb (ty t) R_PAREN then r else after_r_paren r end.
Fixpoint attr_prefix (ts : list tok) : list tt :=
  match ts with t :: r => if is_attr_word (ty t) then ty t :: attr_prefix r else [] | [] => [] end.
Fixpoint attr_lists (ts : list tok) : list (list tt) :=
  match ts with
  | [] => []
  | t :: r => if tt_eqb (ty t) ACTION_ then attr_prefix (after_r_paren r) :: attr_lists r else attr_lists r
  end.

(** What the attribute words say. *)
Definition attrs_mean (l : list tt) (pub : bool) (mut : str) (aux : slice str) : Prop :=
  (pub = true <-> In PUBLIC_ l) /\ (In VIEW_ l -> mut = lit "view") /\ (~ In VIEW_ l -> mut = lit "update") /\
  (In OWNER_ l -> aux = Some [lit "owner"]) /\ (~ In OWNER_ l -> aux = None).

(** [times l t]: how often [t] occurs in [l]. *)
Notation times := (count_occ tt_eq_dec).
(** The first visibility word. *)
Fixpoint first_vis (l : list tt) : str :=
  match l with [] => [] | PUBLIC_ :: _ => lit "public" | PRIVATE_ :: _ => lit "private" | _ :: r => first_vis r end.
(** The fault of an attribute list: visibility before mutability before auxiliary. *)
Definition attrs_fault (l : list tt) (e : gerr) : Prop :=
  ((times l PUBLIC_ + times l PRIVATE_ > 1)%nat /\ e = wrap VisibilityAlreadySet (first_vis l))
  \/ ((times l PUBLIC_ + times l PRIVATE_ <= 1)%nat /\ (times l VIEW_ > 1)%nat /\ e = wrap MutabilityAlreadySet (lit "view"))
  \/ ((times l PUBLIC_ + times l PRIVATE_ <= 1)%nat /\ (times l VIEW_ <= 1)%nat /\ (times l OWNER_ > 1)%nat /\
      e = wrap AuxiliaryAlreadySet (lit "owner")).

(** More than one init block, or else the first action with a faulty attribute list. *)
Definition program_fault (ts : list tok) (e : gerr) : Prop :=
  ((ninit ts > 1)%nat /\ e = ESent MultiInit)
  \/ ((ninit ts <= 1)%nat /\ exists pre l post, attr_lists ts = pre ++ l :: post /\ Forall attr_words pre /\ attrs_fault l e).
