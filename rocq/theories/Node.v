(** schema/validator.go and the Accept methods of schema/schema.go 119-149, with the validator as the object it is: a method
    changes the validator's maps, and what it changed before it returned an error (or panicked) stays changed.
    (Validator.v models one call of Schema.Accept with a new validator, as ParseKF makes it; NodeProof.v relates the two.) *)
From Verif Require Import Schema Validator JsonSpec.

(** A method of the validator: the state it leaves, and its result. *)
Definition method := ctx -> ctx * res unit.
(** "if err := m(); err != nil { return err }" and the rest *)
Definition and_then (p : ctx * res unit) (k : method) : ctx * res unit :=
  match p with (c, Ok _) => k c | _ => p end.
(** A loop that returns on the first error *)
Fixpoint loop {A} (f : A -> method) (l : list A) (c : ctx) : ctx * res unit :=
  match l with [] => (c, Ok tt) | a :: l' => and_then (f a c) (loop f l') end.
(** What only reads *)
Definition reads (r : ctx -> res unit) : method := fun c => (c, r c).

(** VisitTable 116-144 *)
Definition accept_column (col : column) : method := reads (fun _ => visit_column col).
Definition accept_index (i : tindex) : method := reads (visit_index i).
Definition accept_table (t : table) : method := fun c =>
  and_then
    (loop (fun col c =>
       if has (co_name col) (tablectx c (c_current c)) then (c, Err (wrap DuplicateColumn (co_name col)))
       else accept_column col (add_member c (co_name col) (lit "column")))
     (elems (tb_cols t)) (set_tables c (put (c_current c) [] (c_tables c))))
    (loop (fun i c =>
       if has (ix_name i) (tablectx c (c_current c)) then (c, Err (wrap DuplicateIndex (ix_name i)))
       else accept_index i (add_member c (ix_name i) (lit "index")))
     (elems (tb_idx t))).

(** VisitAction 300-319 *)
Definition accept_action (a : action) : method := fun c =>
  loop (fun input c =>
    if has input (actionctx c (c_current c)) then (c, Err (wrap DuplicateParam input))
    else (set_actions c (put (c_current c) (put input input (actionctx c (c_current c))) (c_actions c)), Ok tt))
  (elems (ac_inputs a)) (set_actions c (put (c_current c) [] (c_actions c))).

(** VisitForeignKey 179-199 *)
Definition accept_fkey (f : fkey) : method := reads (fun c => visit_fk c f).

(** VisitSchema 54-109 *)
Definition accept_schema (x : externals) (s : schema) : method := fun c =>
  and_then (loop (fun e c =>
      if has (ext_key e) (c_exts c) then (c, Err (wrap DuplicateExtension (ext_key e)))
      else (set_exts c (put (ext_key e) [] (c_exts c)), Ok tt)) (elems (sc_exts s)) c) (fun c =>
  and_then (loop (fun t c =>
      if has (tb_name t) (c_tables c) then (c, Err (wrap DuplicateTable (tb_name t)))
      else accept_table t (set_current c (tb_name t))) (elems (sc_tables s)) c) (fun c =>
  and_then (loop (fun a c =>
      if has (ac_name a) (c_actions c) then (c, Err (wrap DuplicateAction (ac_name a)))
      else accept_action a (set_current c (ac_name a))) (elems (sc_actions s)) c) (fun c =>
  and_then (loop (fun t => loop (fun fk c =>
      and_then (loop (fun col => reads (fun c => if has col (tablectx c (tb_name t)) then Ok tt
          else Err (wrap ColumnNotFound (lit "fk(" ++ tb_name t ++ lit "/" ++ col ++ lit ")")))) (elems (fk_child fk)) c)
        (accept_fkey fk)) (elems (tb_fks t))) (elems (sc_tables s)) c) (fun c =>
  loop (fun a => reads (fun c => visit_stmts x c a)) (elems (sc_actions s)) c)))).

(** Accept (schema.go 119-149) and the Visit method it calls; VisitExtension panics (111-114), VisitAttribute does nothing (166-168) *)
Definition accept (x : externals) (n : node) : method :=
  match n with
  | NSchema s => accept_schema x s
  | NExtension _ => fun c => (c, Panic (PStr (lit "implement me")))
  | NTable t => accept_table t
  | NColumn col => accept_column col
  | NAttribute _ => fun c => (c, Ok tt)
  | NIndex i => accept_index i
  | NForeignKey f => accept_fkey f
  | NAction a => accept_action a
  end.

(** A validator's life: nodes accepted one after the other by one validator, whatever each call returned (a caller may recover
    from the panic). *)
Fixpoint lives (x : externals) (l : list node) (c : ctx) : ctx :=
  match l with [] => c | n :: l' => lives x l' (fst (accept x n c)) end.
(** The result of one more call *)
Definition then_accept (x : externals) (l : list node) (n : node) : res unit := snd (accept x n (lives x l new_ctx)).
