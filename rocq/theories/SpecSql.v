(** A small reader of SQL, independent of the model: it says what a database
    does with a statement text and its argument list before touching any data.

    [read fl text args] tokenises [text] by the lexical rules of the database
    [fl], replaces every placeholder by the argument it designates, and parses
    the result.  It answers [None] when the database would reject the request:
    lexical or syntax error, wrong number of arguments, a row whose length
    differs from the column list, a column named twice.

    Only the part of SQL that sqlgen writes is accepted. *)
From Verif Require Import Base.

Inductive flavour := MySQL | Postgres | SQLite.

(** ** Tokens *)
Section Tok.
Context {V : Type}.

Inductive tok :=
| Kw (w : bytes)        (* keyword, upper case *)
| Name (n : bytes)      (* identifier, the name it denotes *)
| Num (d : bytes)       (* number literal *)
| Str (s : bytes)       (* string literal *)
| Op (o : bytes)        (* comparison operator *)
| Sym (c : byte)        (* any other character *)
| Param (k : nat)       (* placeholder number k, counted from 1 *)
| Val (v : V)           (* a bound argument *)
| Bad.                  (* lexical error *)

Definition keywords : list bytes := map B
  ["SELECT"; "FROM"; "WHERE"; "INSERT"; "IGNORE"; "INTO"; "VALUES"; "UPDATE"; "SET"; "DELETE";
   "AND"; "OR"; "NOT"; "IN"; "LIKE"; "BETWEEN"; "IS"; "NULL"; "GROUP"; "ORDER"; "BY"; "ASC"; "DESC";
   "LIMIT"; "OFFSET"; "RETURNING"; "ON"; "CONFLICT"; "DO"; "NOTHING"; "DUPLICATE"; "KEY"; "FOR";
   "SHARE"; "NO"]%string.

Definition upper1 (c : byte) : byte := if is_lower c then chr (code c - 32) else c.
Definition lower1 (c : byte) : byte := if is_upper c then chr (code c + 32) else c.

(** Unquoted identifiers: PostgreSQL folds them to lower case. *)
Definition fold_name (fl : flavour) (w : bytes) : bytes :=
  match fl with Postgres => map lower1 w | _ => w end.

Definition is_space (c : byte) : bool := bmem [c] (map (fun n => [chr n]) [32; 9; 10; 13]%N).
Definition word_start (c : byte) : bool := is_alnum c || beq c "_" || N.leb 128 (code c).
Definition word_char (c : byte) : bool := word_start c || beq c "$".
Definition op_char (c : byte) : bool := beq c "=" || beq c "<" || beq c ">" || beq c "!".

(** Quote characters: [Some true] opens an identifier, [Some false] a string. *)
Definition quote_kind (fl : flavour) (c : byte) : option bool :=
  if beq c squote then Some false
  else if beq c dquote then Some (match fl with MySQL => false | _ => true end)
  else if beq c backtick then match fl with Postgres => None | _ => Some true end
  else None.

Definition word_tok (fl : flavour) (w : bytes) : tok :=
  match w with
  | [] => Bad
  | c :: _ => if is_digit c then (if forallb is_digit w then Num w else Bad)
              else if bmem (map upper1 w) keywords then Kw (map upper1 w)
              else Name (fold_name fl w)
  end.

Definition number_of (ds : bytes) : N :=
  fold_left (fun acc c => 10 * acc + (code c - 48))%N ds 0%N.

(** ** Lexer: a state machine over the bytes of the text *)
Inductive mode :=
| Idle
| InWord (acc : bytes)
| InDollar (acc : bytes)
| InOp (acc : bytes)
| InQuote (q : byte) (ident : bool) (acc : bytes)
| AfterQuote (q : byte) (ident : bool) (acc : bytes).

(** mode, number of placeholders met, tokens met (latest first) *)
Definition lstate := (mode * nat * list tok)%type.

Definition quoted_tok (ident : bool) (acc : bytes) : tok :=
  if ident then match acc with [] => Bad | _ => Name acc end else Str acc.

(** Ends the token being read. *)
Definition flush (fl : flavour) (st : lstate) : lstate :=
  match st with
  | (Idle, n, out) => (Idle, n, out)
  | (InWord acc, n, out) => (Idle, n, word_tok fl (rev acc) :: out)
  | (InDollar acc, n, out) =>
      match acc with
      | [] => (Idle, n, Bad :: out)
      | _ => (Idle, S n, Param (N.to_nat (number_of (rev acc))) :: out)
      end
  | (InOp acc, n, out) => (Idle, n, Op (rev acc) :: out)
  | (InQuote _ _ _, n, out) => (Idle, n, Bad :: out)
  | (AfterQuote _ i acc, n, out) => (Idle, n, quoted_tok i (rev acc) :: out)
  end.

(** A byte met between two tokens. *)
Definition start (fl : flavour) (n : nat) (out : list tok) (c : byte) : lstate :=
  if is_space c then (Idle, n, out)
  else if word_start c then (InWord [c], n, out)
  else if op_char c then (InOp [c], n, out)
  else match quote_kind fl c with
       | Some i => (InQuote c i [], n, out)
       | None =>
           match fl with
           | Postgres => if beq c "$" then (InDollar [], n, out) else (Idle, n, Sym c :: out)
           | _ => if beq c "?" then (Idle, S n, Param (S n) :: out) else (Idle, n, Sym c :: out)
           end
       end.

Definition restart (fl : flavour) (st : lstate) (c : byte) : lstate :=
  let '(_, n, out) := flush fl st in start fl n out c.

Definition step (fl : flavour) (st : lstate) (c : byte) : lstate :=
  match st with
  | (InWord acc, n, out) => if word_char c then (InWord (c :: acc), n, out) else restart fl st c
  | (InDollar acc, n, out) => if is_digit c then (InDollar (c :: acc), n, out) else restart fl st c
  | (InOp acc, n, out) => if op_char c then (InOp (c :: acc), n, out) else restart fl st c
  | (InQuote q i acc, n, out) =>
      if beq c q then (AfterQuote q i acc, n, out) else (InQuote q i (c :: acc), n, out)
  | (AfterQuote q i acc, n, out) =>
      if beq c q then (InQuote q i (c :: acc), n, out) else restart fl st c
  | (Idle, n, out) => start fl n out c
  end.

Fixpoint run (fl : flavour) (st : lstate) (s : bytes) : lstate :=
  match s with [] => st | c :: s' => run fl (step fl st c) s' end.

(** Tokens of [s], when [n] placeholders came before. *)
Definition lex_from (fl : flavour) (n : nat) (s : bytes) : list tok :=
  let '(_, _, out) := flush fl (run fl (Idle, n, []) s) in rev out.
Definition lex (fl : flavour) (s : bytes) : list tok := lex_from fl 0 s.

(** ** Binding of the arguments *)
Definition highest (ts : list tok) : nat :=
  fold_right (fun t m => match t with Param k => Nat.max k m | _ => m end) 0 ts.
Definition bind_tok (args : list V) (t : tok) : tok :=
  match t with
  | Param 0 => Bad
  | Param (S k) => match nth_error args k with Some v => Val v | None => Bad end
  | _ => t
  end.
Definition is_param (k : nat) (t : tok) : bool := match t with Param j => Nat.eqb k j | _ => false end.
(** The number of arguments has to be the number of placeholders, and every argument is used: PostgreSQL cannot
    determine the type of a parameter that does not occur. *)
Definition bind_args (ts : list tok) (args : list V) : option (list tok) :=
  if Nat.eqb (highest ts) (length args) && forallb (fun k => existsb (is_param k) ts) (seq 1 (length args))
  then Some (map (bind_tok args) ts) else None.

(** ** Parser *)
Definition is_sym (c : byte) (t : tok) : bool := match t with Sym d => beq c d | _ => false end.
Definition is_kw (w : bytes) (t : tok) : bool := match t with Kw v => bseq w v | _ => false end.
Definition is_bad (t : tok) : bool := match t with Bad => true | _ => false end.
Definition one_of (ws : list bytes) (t : tok) : bool := match t with Kw v => bmem v ws | _ => false end.

(** [group d ts]: the tokens up to the parenthesis closing depth [d], and what follows it. *)
Fixpoint group (d : nat) (ts : list tok) : option (list tok * list tok) :=
  match ts with
  | [] => None
  | t :: r =>
      let push x := match x with Some (a, b) => Some (t :: a, b) | None => None end in
      if is_sym "(" t then push (group (S d) r)
      else if is_sym ")" t then match d with O => Some ([], r) | S d' => push (group d' r) end
      else push (group d r)
  end.

(** [until stop d ts]: the tokens before the first top-level token satisfying [stop], and the rest. *)
Fixpoint until (stop : tok -> bool) (d : nat) (ts : list tok) : option (list tok * list tok) :=
  match ts with
  | [] => match d with O => Some ([], []) | _ => None end
  | t :: r =>
      let push x := match x with Some (a, b) => Some (t :: a, b) | None => None end in
      if is_sym "(" t then push (until stop (S d) r)
      else if is_sym ")" t then match d with O => None | S d' => push (until stop d' r) end
      else match d with
           | O => if stop t then Some ([], ts) else push (until stop O r)
           | _ => push (until stop d r)
           end
  end.

(** [split sep d ts]: cuts [ts] at the top-level tokens satisfying [sep]. *)
Fixpoint split (sep : tok -> bool) (d : nat) (ts : list tok) : list (list tok) :=
  match ts with
  | [] => [[]]
  | t :: r =>
      let push x := match x with a :: l => (t :: a) :: l | [] => [[t]] end in
      if is_sym "(" t then push (split sep (S d) r)
      else if is_sym ")" t then push (split sep (pred d) r)
      else match d with
           | O => if sep t then [] :: split sep O r else push (split sep O r)
           | _ => push (split sep d r)
           end
  end.

Fixpoint all_some {A} (l : list (option A)) : option (list A) :=
  match l with
  | [] => Some []
  | Some a :: l' => match all_some l' with Some r => Some (a :: r) | None => None end
  | None :: _ => None
  end.
Definition obind {A C} (x : option A) (f : A -> option C) : option C :=
  match x with Some a => f a | None => None end.
Definition guard (b : bool) : option unit := if b then Some tt else None.

Definition clause_kw : list bytes := map B
  ["SELECT"; "FROM"; "WHERE"; "INSERT"; "INTO"; "VALUES"; "UPDATE"; "SET"; "DELETE"; "GROUP"; "ORDER"; "BY";
   "LIMIT"; "OFFSET"; "RETURNING"; "ON"; "DO"; "FOR"]%string.
Definition connective : list bytes := map B ["AND"; "OR"; "NOT"; "IN"; "LIKE"; "BETWEEN"; "IS"; "ASC"; "DESC"]%string.
Definition is_comma := is_sym ",".
Definition is_op (t : tok) : bool := match t with Op _ => true | _ => false end.
Definition ends_clause (t : tok) : bool := one_of clause_kw t || is_sym ";" t.

(** An expression is kept as its tokens; it has no top-level comma, operator,
    connective or clause keyword, and no value or parenthesis is called like a function. *)
Definition expr := list tok.
Definition ends_value (t : tok) : bool := match t with Val _ | Num _ | Str _ | Param _ => true | _ => is_sym ")" t end.
Fixpoint calls_value (ts : list tok) : bool :=
  match ts with
  | t :: r => (ends_value t && match r with u :: _ => is_sym "(" u | [] => false end) || calls_value r
  | [] => false
  end.
Definition separator (t : tok) : bool := is_comma t || is_op t || ends_clause t || one_of connective t || is_bad t.
Definition is_expr (ts : list tok) : bool :=
  match ts with [] => false | _ => match until separator 0 ts with Some (_, []) => negb (calls_value ts) | _ => false end end.
Definition exprs (ts : list tok) : option (list expr) :=
  let l := split is_comma 0 ts in if forallb is_expr l then Some l else None.

Definition name1 (ts : list tok) : option bytes := match ts with [Name n] => Some n | _ => None end.
Fixpoint no_dup (l : list bytes) : bool :=
  match l with [] => true | x :: l' => negb (bmem x l') && no_dup l' end.
Definition names (ts : list tok) : option (list bytes) :=
  obind (all_some (map name1 (split is_comma 0 ts))) (fun l =>
  if no_dup l then Some l else None).

(** A table name, possibly qualified. *)
Fixpoint qname (ts : list tok) : option (list bytes) :=
  match ts with
  | [Name n] => Some [n]
  | Name n :: Sym c :: r => if beq c "." then obind (qname r) (fun q => Some (n :: q)) else None
  | _ => None
  end.

Inductive operand := One (e : expr) | Tuple (es : list expr).
Definition parse_operand (ts : list tok) : option operand :=
  match ts with
  | Sym c :: r =>
      if beq c "(" then
        match group 0 r with
        | Some (inner, []) => obind (exprs inner) (fun l => Some (Tuple l))
        | _ => if is_expr ts then Some (One ts) else None
        end
      else if is_expr ts then Some (One ts) else None
  | _ => if is_expr ts then Some (One ts) else None
  end.
Definition width (o : operand) : nat := match o with One _ => 1 | Tuple es => length es end.

Inductive cond :=
| Compare (l : operand) (op : bytes) (r : operand)
| InList (negated : bool) (l : operand) (items : list expr)
| Between (negated : bool) (l lo hi : operand)
| Like (negated : bool) (l r : operand)
| IsNull (negated : bool) (l : operand)
| Conj (l : list cond)
| Disj (l : list cond).

Definition comparison (o : bytes) : bool := bmem o (map B ["="; "<>"; "<"; "<="; ">"; ">="]%string).
Definition pred_start (t : tok) : bool :=
  is_op t || one_of (map B ["NOT"; "IN"; "LIKE"; "BETWEEN"; "IS"]%string) t.

Definition pred_tail (negated : bool) (l : operand) (k : bytes) (r : list tok) : option cond :=
  if bseq k (B "IN") then
    match parse_operand r with Some (Tuple es) => Some (InList negated l es) | _ => None end
  else if bseq k (B "LIKE") then obind (parse_operand r) (fun p => Some (Like negated l p))
  else if bseq k (B "BETWEEN") then
    match split (is_kw (B "AND")) 0 r with
    | [lo; hi] => obind (parse_operand lo) (fun lo => obind (parse_operand hi) (fun hi => Some (Between negated l lo hi)))
    | _ => None
    end
  else None.

Definition predicate (ts : list tok) : option cond :=
  match until pred_start 0 ts with
  | Some (lhs, t :: r) =>
      obind (parse_operand lhs) (fun l =>
      match t with
      | Op o =>
          if comparison o then
            obind (parse_operand r) (fun r =>
            if Nat.eqb (width l) (width r) then Some (Compare l o r) else None)
          else None
      | Kw k =>
          if bseq k (B "IS") then
            match r with
            | [Kw a] => if bseq a (B "NULL") then Some (IsNull false l) else None
            | [Kw a; Kw b] => if bseq a (B "NOT") && bseq b (B "NULL") then Some (IsNull true l) else None
            | _ => None
            end
          else if bseq k (B "NOT") then match r with Kw k2 :: r2 => pred_tail true l k2 r2 | _ => None end
          else pred_tail false l k r
      | _ => None
      end)
  | _ => None
  end.

(** Cuts at the top-level ANDs that do not belong to a BETWEEN. *)
Fixpoint split_and (d : nat) (inside : bool) (ts : list tok) : list (list tok) :=
  match ts with
  | [] => [[]]
  | t :: r =>
      let push x := match x with a :: l => (t :: a) :: l | [] => [[t]] end in
      if is_sym "(" t then push (split_and (S d) inside r)
      else if is_sym ")" t then push (split_and (pred d) inside r)
      else match d with
           | O => if is_kw (B "AND") t then
                    if inside then push (split_and O false r) else [] :: split_and O false r
                  else if is_kw (B "BETWEEN") t then push (split_and O true r)
                  else push (split_and O inside r)
           | _ => push (split_and d inside r)
           end
  end.

Definition chain (mk : list cond -> cond) (l : list cond) : cond := match l with [c] => c | _ => mk l end.

(** OR binds weaker than AND; a parenthesised condition is a condition. *)
Fixpoint condition (fuel : nat) (ts : list tok) : option cond :=
  match fuel with
  | O => None
  | S f =>
      let atom ts :=
        match ts with
        | Sym c :: r =>
            if beq c "(" then match group 0 r with Some (inner, []) => condition f inner | _ => predicate ts end
            else predicate ts
        | _ => predicate ts
        end in
      let conj ts := obind (all_some (map atom (split_and 0 false ts))) (fun l => Some (chain Conj l)) in
      obind (all_some (map conj (split (is_kw (B "OR")) 0 ts))) (fun l => Some (chain Disj l))
  end.

(** ** Statements *)
Inductive direction := Ascending | Descending.
Definition ordering := list (operand * direction).

(** What happens to a proposed row that collides with a stored one; an
    assignment [(c, d)] gives column [c] the proposed value of column [d]. *)
Inductive on_conflict :=
| Fail
| DoNothing (target : list bytes)
| DoUpdate (target : list bytes) (sets : list (bytes * bytes)).

Inductive stmt :=
| Insert (table : list bytes) (cols : list bytes) (rows : list (list expr)) (c : on_conflict) (returning : list expr)
| Select (items : list expr) (table : list bytes) (wh : option cond) (grp : list expr) (ord : ordering)
         (limit offset : option N) (lock : list bytes)
| Update (table : list bytes) (sets : list (bytes * expr)) (wh : option cond) (ord : ordering) (limit : option N)
| Delete (table : list bytes) (wh : option cond) (ord : ordering) (limit : option N).

(** An optional clause introduced by the given keywords. *)
Fixpoint strip (ws : list bytes) (ts : list tok) : option (list tok) :=
  match ws, ts with
  | [], _ => Some ts
  | w :: ws', t :: r => if is_kw w t then strip ws' r else None
  | _ :: _, [] => None
  end.
Definition clause {A} (ws : list bytes) (p : list tok -> option A) (ts : list tok) : option (option A * list tok) :=
  match strip ws ts with
  | None => Some (None, ts)
  | Some r => obind (until ends_clause 0 r) (fun '(body, rest) => obind (p body) (fun a => Some (Some a, rest)))
  end.
Definition the_end (ts : list tok) : bool :=
  match ts with [] => true | [t] => is_sym ";" t | _ => false end.

Definition where_p (ts : list tok) : option cond := condition (length ts) ts.
Definition number (ts : list tok) : option N := match ts with [Num d] => Some (number_of d) | _ => None end.
(** Only PostgreSQL can order by a row value. *)
Definition orderable (fl : flavour) (o : operand) : bool :=
  match o, fl with One _, _ => true | Tuple _, Postgres => true | Tuple _, _ => false end.
Definition order_item (fl : flavour) (ts : list tok) : option (operand * direction) :=
  let '(body, dir) :=
    match rev ts with
    | Kw w :: r => if bseq w (B "ASC") then (rev r, Ascending) else if bseq w (B "DESC") then (rev r, Descending) else (ts, Ascending)
    | _ => (ts, Ascending)
    end in
  obind (parse_operand body) (fun o => if orderable fl o then Some (o, dir) else None).
Definition order_p (fl : flavour) (ts : list tok) : option ordering :=
  all_some (map (order_item fl) (split is_comma 0 ts)).

Definition assignment (ts : list tok) : option (bytes * expr) :=
  match ts with
  | Name c :: Op o :: e => if bseq o (B "=") && is_expr e then Some (c, e) else None
  | _ => None
  end.
Definition assignments (ts : list tok) : option (list (bytes * expr)) :=
  all_some (map assignment (split is_comma 0 ts)).

(** [excluded.c] in PostgreSQL and SQLite, [VALUES(c)] in MySQL *)
Definition proposed (fl : flavour) (ts : list tok) : option bytes :=
  match fl, ts with
  | MySQL, [Kw w; Sym o; Name c; Sym e] =>
      if bseq w (B "VALUES") && beq o "(" && beq e ")" then Some c else None
  | Postgres, [Name x; Sym d; Name c] => if bseq x (B "excluded") && beq d "." then Some c else None
  | SQLite, [Name x; Sym d; Name c] =>
      if bseq (map lower1 x) (B "excluded") && beq d "." then Some c else None
  | _, _ => None
  end.
Definition proposal (fl : flavour) (ts : list tok) : option (bytes * bytes) :=
  match ts with
  | Name c :: Op o :: e => if bseq o (B "=") then obind (proposed fl e) (fun d => Some (c, d)) else None
  | _ => None
  end.
Definition proposals (fl : flavour) (ts : list tok) : option (list (bytes * bytes)) :=
  all_some (map (proposal fl) (split is_comma 0 ts)).

Definition parens (ts : list tok) : option (list tok) :=
  match ts with
  | Sym c :: r => if beq c "(" then match group 0 r with Some (inner, []) => Some inner | _ => None end else None
  | _ => None
  end.
Definition value_row (ts : list tok) : option (list expr) := obind (parens ts) exprs.

(** VALUES(c) may follow in MySQL, so the keyword VALUES does not end this clause. *)
Definition ends_update (t : tok) : bool := is_kw (B "RETURNING") t || is_sym ";" t.
Definition conflict_p (fl : flavour) (ignore : bool) (ts : list tok) : option (on_conflict * list tok) :=
  match fl, strip (map B ["ON"; "DUPLICATE"; "KEY"; "UPDATE"]%string) ts, strip (map B ["ON"; "CONFLICT"]%string) ts with
  | MySQL, Some r, _ =>
      obind (until ends_update 0 r) (fun '(body, rest) =>
      obind (proposals fl body) (fun l => Some (DoUpdate [] l, rest)))
  | MySQL, None, None => Some (if ignore then DoNothing [] else Fail, ts)
  | Postgres, None, Some r | SQLite, None, Some r =>
      obind (until ends_clause 0 r) (fun '(tgt, rest) =>
      obind (obind (parens tgt) names) (fun tgt =>
      match strip (map B ["DO"; "NOTHING"]%string) rest, strip (map B ["DO"; "UPDATE"; "SET"]%string) rest with
      | Some rest, _ => Some (DoNothing tgt, rest)
      | None, Some r2 =>
          obind (until ends_update 0 r2) (fun '(body, rest) =>
          obind (proposals fl body) (fun l => Some (DoUpdate tgt l, rest)))
      | None, None => None
      end))
  | Postgres, None, None | SQLite, None, None => Some (Fail, ts)
  | _, _, _ => None
  end.

Definition opt_list {A} (x : option (list A)) : list A := match x with Some l => l | None => [] end.

(** [table ( columns )] cut before the parenthesis *)
Fixpoint cut_paren (ts : list tok) : list tok * list tok :=
  match ts with
  | [] => ([], [])
  | t :: r => if is_sym "(" t then ([], ts) else let '(a, b) := cut_paren r in (t :: a, b)
  end.

Definition parse_insert (fl : flavour) (ignore : bool) (ts : list tok) : option stmt :=
  obind (until ends_clause 0 ts) (fun '(head, rest) =>
  let '(tbl, cols) := cut_paren head in
  obind (qname tbl) (fun table =>
  obind (obind (parens cols) names) (fun cols =>
  obind (strip [B "VALUES"] rest) (fun r =>
  obind (until ends_clause 0 r) (fun '(body, rest) =>
  obind (all_some (map value_row (split is_comma 0 body))) (fun rows =>
  obind (guard (forallb (fun r => Nat.eqb (length r) (length cols)) rows)) (fun _ =>
  obind (conflict_p fl ignore rest) (fun '(c, rest) =>
  obind (clause [B "RETURNING"] exprs rest) (fun '(ret, rest) =>
  obind (guard (the_end rest)) (fun _ =>
  obind (guard (match fl, ret with MySQL, Some _ => false | _, _ => true end)) (fun _ =>
  Some (Insert table cols rows c (opt_list ret))))))))))))).

Definition lock_p (fl : flavour) (ts : list tok) : option (list bytes) :=
  let l := map (fun t => match t with Kw w => Some w | _ => None end) ts in
  match fl with SQLite => None | _ => all_some l end.

(** OFFSET alone is accepted by PostgreSQL only. *)
Definition parse_select (fl : flavour) (ts : list tok) : option stmt :=
  obind (until ends_clause 0 ts) (fun '(items, rest) =>
  obind (exprs items) (fun items =>
  obind (strip [B "FROM"] rest) (fun r =>
  obind (until ends_clause 0 r) (fun '(tbl, rest) =>
  obind (qname tbl) (fun table =>
  obind (clause [B "WHERE"] where_p rest) (fun '(wh, rest) =>
  obind (clause (map B ["GROUP"; "BY"]%string) exprs rest) (fun '(grp, rest) =>
  obind (clause (map B ["ORDER"; "BY"]%string) (order_p fl) rest) (fun '(ord, rest) =>
  obind (clause [B "LIMIT"] number rest) (fun '(lim, rest) =>
  obind (clause [B "OFFSET"] number rest) (fun '(off, rest) =>
  obind (guard (match fl, off, lim with Postgres, _, _ => true | _, Some _, None => false | _, _, _ => true end)) (fun _ =>
  obind (match strip [B "FOR"] rest with
         | None => Some (None, rest)
         | Some r =>
             obind (until (is_sym ";") 0 r) (fun '(body, rest) =>
             obind (lock_p fl body) (fun l => Some (Some l, rest)))
         end) (fun '(lock, rest) =>
  obind (guard (the_end rest)) (fun _ =>
  Some (Select items table wh (opt_list grp) (opt_list ord) lim off (opt_list lock))))))))))))))).

(** ORDER BY and LIMIT in UPDATE and DELETE: not in PostgreSQL. *)
Definition parse_tail (fl : flavour) (ts : list tok) : option (option cond * ordering * option N) :=
  obind (clause [B "WHERE"] where_p ts) (fun '(wh, rest) =>
  obind (clause (map B ["ORDER"; "BY"]%string) (order_p fl) rest) (fun '(ord, rest) =>
  obind (clause [B "LIMIT"] number rest) (fun '(lim, rest) =>
  obind (guard (the_end rest)) (fun _ =>
  obind (guard (match fl, ord, lim with Postgres, None, None => true | Postgres, _, _ => false | _, _, _ => true end)) (fun _ =>
  Some (wh, opt_list ord, lim)))))).

Definition parse_update (fl : flavour) (ts : list tok) : option stmt :=
  obind (until ends_clause 0 ts) (fun '(tbl, rest) =>
  obind (qname tbl) (fun table =>
  obind (strip [B "SET"] rest) (fun r =>
  obind (until ends_clause 0 r) (fun '(body, rest) =>
  obind (assignments body) (fun sets =>
  obind (parse_tail fl rest) (fun '(wh, ord, lim) =>
  Some (Update table sets wh ord lim))))))).

Definition parse_delete (fl : flavour) (ts : list tok) : option stmt :=
  obind (until ends_clause 0 ts) (fun '(tbl, rest) =>
  obind (qname tbl) (fun table =>
  obind (parse_tail fl rest) (fun '(wh, ord, lim) =>
  Some (Delete table wh ord lim)))).

Definition parse (fl : flavour) (ts : list tok) : option stmt :=
  match strip (map B ["INSERT"; "INTO"]%string) ts with
  | Some r => parse_insert fl false r
  | None =>
  match fl, strip (map B ["INSERT"; "IGNORE"; "INTO"]%string) ts with
  | MySQL, Some r => parse_insert fl true r
  | _, _ =>
  match strip [B "SELECT"] ts with
  | Some r => parse_select fl r
  | None =>
  match strip [B "UPDATE"] ts with
  | Some r => parse_update fl r
  | None =>
  match strip (map B ["DELETE"; "FROM"]%string) ts with
  | Some r => parse_delete fl r
  | None => None
  end end end end end.

Definition read (fl : flavour) (text : bytes) (args : list V) : option stmt :=
  obind (bind_args (lex fl text) args) (fun ts =>
  if existsb is_bad ts then None else parse fl ts).

End Tok.
Arguments tok : clear implicits.
Arguments expr : clear implicits.
Arguments operand : clear implicits.
Arguments cond : clear implicits.
Arguments stmt : clear implicits.
