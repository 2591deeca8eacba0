(** Model of internal/builder/lexer.go.

    The input is split at the two positions the lexer keeps: [lx_val] is
    input[start:pos] and [lx_rest] is input[pos:].  Not modelled: the error
    messages (only the class of an error matters to callers), lastEmittedStart
    (used only in messages) and the state stack, which no code ever pushes to:
    pop always takes its error branch and handleEmpty never pops. *)
From Verif Require Import Prelude GoStrings.

(** lexer.go:17-25 *)
Inductive lexeme_type := LError | LIdentity | LRoot | LDotChild | LUndottedChild | LBracketChild | LEOF.
(** lexer.go:32-35 *)
Record lexeme := mkLexeme { lm_typ : lexeme_type; lm_val : list N }.

(** lexer.go:37-39  the state functions; [None] is a nil stateFn. *)
Inductive lex_state := SPath | SRoot | SSubPath.

(** lexer.go:42-53.  [lx_items] is the content of the buffered channel. *)
Record lexer := mkLexer {
  lx_val : list N; lx_rest : list N; lx_state : option lex_state;
  lx_items : list lexeme; lx_last : lexeme_type }.

(** lexer.go:27-29 *)
Definition chan_len : nat := 2.

(** lexer.go:56-67 *)
Definition lex_new (input : list N) : lexer := mkLexer [] input (Some SPath) [] LEOF.

(** A send on the channel.  The only receiver is the same goroutine, so a send
    on a full channel blocks for ever: it is a crash ([Panic]). *)
(* lexer.go:269, 293, 309  l.items <- lexeme *)
Definition send (i : lexeme) (l : lexer) : res lexer :=
  if Nat.ltb (length (lx_items l)) chan_len
  then Ok (mkLexer (lx_val l) (lx_rest l) (lx_state l) (lx_items l ++ [i]) (lx_last l))
  else Panic.

(** lexer.go:267-277  emit *)
Definition emit (t : lexeme_type) (l : lexer) : res lexer :=
  let! l' := send (mkLexeme t (lx_val l)) l in
  Ok (mkLexer [] (lx_rest l') (lx_state l') (lx_items l') t).

(** lexer.go:290-297  emitSynthetic *)
Definition emit_synthetic (t : lexeme_type) (v : list N) (l : lexer) : res lexer := send (mkLexeme t v) l.

(** Setting the next state. *)
(* lexer.go:100  l.state = l.state(l) *)
Definition goto (s : option lex_state) (l : lexer) : lexer :=
  mkLexer (lx_val l) (lx_rest l) s (lx_items l) (lx_last l).

(** lexer.go:307-315  errorf (the message is dropped), then state nil. *)
Definition errorf (l : lexer) : res lexer :=
  let! l' := send (mkLexeme LError []) l in Ok (goto None l').

(** Moving [n] characters from the unread part to the current lexeme. *)
(* lexer.go:108-126  l.pos += width *)
Definition advance (n : nat) (l : lexer) : lexer :=
  mkLexer (lx_val l ++ take n (lx_rest l)) (drop n (lx_rest l)) (lx_state l) (lx_items l) (lx_last l).

(** lexer.go:140-171, 231-259  peekedWhitespaced/consumedWhitespaced: the number
    of characters covered by the tokens (each one character here) separated by
    optional white space, or [None]. *)
Fixpoint spaces (s : list N) : nat :=
  match s with c :: r => if is_space c then S (spaces r) else 0 | [] => 0 end.
Fixpoint whitespaced (tokens : list N) (s : list N) : option nat :=
  match tokens with
  | [] => Some 0
  | t :: ts =>
      let n := spaces s in
      match drop n s with
      | [] => None
      | c :: r =>
          if ceq c t then match whitespaced ts r with Some m => Some (n + 1 + m) | None => None end
          else None
      end
  end.
Definition peeked_ws (tokens s : list N) : bool := match whitespaced tokens s with Some _ => true | None => false end.

(** lexer.go:322-338  lexPath *)
Definition lex_path (l : lexer) : res lexer :=
  match lx_rest l with
  | [] => let! l1 := emit LIdentity l in let! l2 := emit LEOF l1 in Ok (goto None l2)
  | c :: _ =>
      if ceq c (ch "$") then Ok (goto (Some SRoot) l)
      else let! l1 := emit_synthetic LRoot (lit "$") l in Ok (goto (Some SSubPath) l1)
  end.

(** lexer.go:340-345  lexRoot *)
Definition lex_root (l : lexer) : res lexer :=
  let! l1 := emit LRoot (advance 1 l) in Ok (goto (Some SSubPath) l1).

(** lexer.go:391-402  enquote panics unless given a quote character. *)
Definition is_quote (q : N) : bool := ceq q (ch "'") || ceq q 34%N.

(** lexer.go:347-368  consumedEscapedString: the number of characters up to the
    unescaped quote [q]; [Err] when an error lexeme was sent, [Panic] when
    enquote is called with something else than a quote. *)
Fixpoint escaped_len (q : N) (s : list N) : res nat :=
  match s with
  | [] => if is_quote q then Err EInvalidPath else Panic
  | c :: r =>
      if ceq c q then Ok 0
      else if ceq c (ch "\") then
        match r with
        | [] => Err EInvalidPath
        | c2 :: r2 =>
            if ceq c2 q || ceq c2 (ch "\") then let! n := escaped_len q r2 in Ok (S (S n))
            else Err EInvalidPath
        end
      else let! n := escaped_len q r in Ok (S n)
  end.

(** lexer.go:434-453  the loop of handleBracket.  [Ok (Some l')]: left the loop;
    [Ok None]: an error lexeme must be sent.  The character standing for a
    failed next() (end of input) is U+FFFD. *)
Fixpoint bracket_loop (fuel : nat) (l : lexer) : res (option lexer) :=
  match fuel with
  | O => Fuel
  | S f =>
      let l1 := advance (spaces (lx_rest l)) l in                   (* consumeWhitespace *)
      let q := match lx_rest l1 with c :: _ => c | [] => 65533%N end in
      let l2 := advance 1 l1 in                                     (* next *)
      match escaped_len q (lx_rest l2) with
      | Err _ => Ok None
      | Panic => Panic
      | Fuel => Fuel
      | Ok n =>
          let l3 := advance (S n) (l2) in                           (* consumed(quote) succeeds *)
          match whitespaced (lit ",") (lx_rest l3) with
          | Some m =>
              let l4 := advance m l3 in
              if peeked_ws (lit "'") (lx_rest l4) || peeked_ws [34%N] (lx_rest l4)
              then bracket_loop f l4
              else Ok None
          | None => Ok (Some l3)
          end
      end
  end.

(** lexer.go:431-462  handleBracket *)
Definition handle_bracket (l : lexer) : res lexer :=
  let l1 := match whitespaced (lit "[") (lx_rest l) with Some m => advance m l | None => l end in
  let! r := bracket_loop (S (length (lx_rest l1))) l1 in
  match r with
  | None => errorf l
  | Some l2 =>
      match whitespaced (lit "]") (lx_rest l2) with
      | None => errorf l2
      | Some m => let! l3 := emit LBracketChild (advance m l2) in Ok (goto (Some SSubPath) l3)
      end
  end.

(** lexer.go:416-420  where a child name stops *)
Definition stops : list N := lit ".[) &|=!><~*".

(** lexer.go:193-212  consumeUntil: the length of the longest prefix without a
    stop character. *)
Fixpoint name_len (s : list N) : nat :=
  match s with c :: r => if existsb (ceq c) stops then 0 else S (name_len r) | [] => 0 end.

(** lexer.go:415-429  handleChild *)
Definition handle_child (t : lexeme_type) (l : lexer) : res lexer :=
  match name_len (lx_rest l) with
  | O => errorf l
  | n => let! l1 := emit t (advance n l) in Ok (goto (Some SSubPath) l1)
  end.

(** lexer.go:404-413  handleEmpty (stack always empty) *)
Definition handle_empty (l : lexer) : res lexer :=
  let! l1 := emit LIdentity l in let! l2 := emit LEOF l1 in Ok (goto None l2).

(** lexer.go:370-389  lexSubPath *)
Definition lex_sub_path (l : lexer) : res lexer :=
  match lx_rest l with
  | [] => handle_empty l
  | c :: _ =>
      if ceq c (ch ")") then errorf l
      else if ceq c (ch ".") then handle_child LDotChild (advance 1 l)
      else if peeked_ws (lit "['") (lx_rest l) || peeked_ws [ch "["; 34%N] (lx_rest l) then handle_bracket l
      else match lx_last l with
           | LEOF => handle_child LUndottedChild l
           | _ => errorf l
           end
  end.

Definition run_state (s : lex_state) (l : lexer) : res lexer :=
  match s with SPath => lex_path l | SRoot => lex_root l | SSubPath => lex_sub_path l end.

(** lexer.go:87-103  nextLexeme: receive if something is queued, otherwise run
    the state functions. *)
Fixpoint next_lexeme (fuel : nat) (l : lexer) : res (lexeme * lexer) :=
  match lx_items l with
  | i :: rest => Ok (i, mkLexer (lx_val l) (lx_rest l) (lx_state l) rest (lx_last l))
  | [] =>
      match lx_state l with
      | None => Ok (mkLexeme LEOF [], l)
      | Some s =>
          match fuel with
          | O => Fuel
          | S f => let! l' := run_state s l in next_lexeme f l'
          end
      end
  end.
