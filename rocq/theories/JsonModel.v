(* Module json: modules/json.kos over the raw lexer of module kos, modules/kos_mod_kos.c:106-360. *)
From Coq Require Import String Ascii ZArith List Bool.
Import ListNotations.
From Verif Require Import Base ListZ Utf8Model LexModel ParseIntModel.
Local Open Scope Z_scope.

(* The objects which the module produces and dumps.  A string is the list of its code points, an object the list of its
   properties in the order in which it is walked.  Floats, generators and other objects are not modelled. *)
Inductive jv : Type :=
| JVoid | JBool (b : bool) | JInt (z : Z) | JStr (cs : list Z) | JArr (l : list jv) | JObj (l : list (list Z * jv)).

(* JThrow: an exception; JUnk: the input needs a part of the lexer or of the number parser which is not modelled;
   JFuel: the model's recursion ran out, does not happen *)
Inductive jres (A : Type) := JOk (a : A) | JThrow | JUnk | JFuel.
Arguments JOk {A} a. Arguments JThrow {A}. Arguments JUnk {A}. Arguments JFuel {A}.

Fixpoint zeqb (a b : list Z) : bool :=
  match a, b with
  | [], [] => true
  | x :: a', y :: b' => (x =? y) && zeqb a' b'
  | _, _ => false
  end.

(* A token from tokenize: it has the property "value" or it is a separator *)
Inductive jtok : Type := KVal (v : jv) | KSep (c : Z).
(* How the generator tokenize ends *)
Inductive jend : Type := EndOk | EndThrow | EndUnk | EndFuel.

(* core/kos_lexer.c:875-1063 and modules/kos_mod_kos.c:291-306: where the lexer continues after an error which is reported as
   a whitespace token.  Errors inside of numbers, escape sequences and UTF-8 sequences are not modelled. *)
Definition after_error (e : lexerr) (x : lex) : option lex :=
  match e with
  | EInvalidChar | ETab | EChr => Some (snd (prefetch x))
  | EEofStr => Some (mklex [] (l_line x) (l_col x) (l_oline x) (l_ocol x))
  | _ => None
  end.

(* modules/kos_mod_kos.c:247-320 with ignore_errors and without a generator: the next token *)
Inductive raw : Type := RTok (t : token) (x : lex) | RWhite (x : lex) | RUnk | RFuel.
Definition raw_next (x : lex) : raw :=
  match next_token false x with
  | LOk (t, x1) => RTok t x1
  | LErr e => match after_error e x with Some x1 => RWhite x1 | None => RUnk end
  | LOver => RUnk
  | LFuel => RFuel
  end.

Definition token_text (t : token) : list Z := firstn (Z.to_nat (t_len t)) (t_begin t).

(* modules/json.kos:7-14 separator_map: { } [ ] , : *)
Definition json_separator (c : Z) : bool := existsb (Z.eqb c) [123; 125; 91; 93; 44; 58].
(* modules/json.kos:16-20 keyword_map *)
Definition json_keyword (s : list Z) : option jv :=
  if zeqb s (zs "true") then Some (JBool true) else if zeqb s (zs "false") then Some (JBool false)
  else if zeqb s (zs "null") then Some JVoid else None.

(* number(token.token), core/kos_parse_numeric; a number which is not an integer is not modelled *)
Definition json_number (s : list Z) : jres Z :=
  if is_integer s then match parse_int s with PVal v => JOk v | PError => JThrow | PUB _ => JUnk end else JUnk.

(* string(token.token[1:-1]) *)
Definition json_string (s : list Z) : jres (list Z) :=
  match decode 32 false s with Ok cs => JOk (removelast (tl cs)) | Fail => JThrow | OverRead => JUnk end.

Definition cons_tok (k : jtok) (r : list jtok * jend) : list jtok * jend := (k :: fst r, snd r).

(* modules/json.kos:36-105 tokenize: the tokens which the generator yields and how it ends *)
Fixpoint json_tokens (fuel : nat) (x : lex) (had_minus : bool) : list jtok * jend :=
  match fuel with
  | O => ([], EndFuel)
  | Datatypes.S f =>
      match raw_next x with
      | RUnk => ([], EndUnk)
      | RFuel => ([], EndFuel)
      | RWhite x1 => if had_minus then ([], EndThrow) else json_tokens f x1 false
      | RTok t x1 =>
          match t_type t with
          | TEof => ([], if had_minus then EndThrow else EndOk)
          | TNum =>
              match json_number (token_text t) with
              | JOk v => cons_tok (KVal (JInt (if had_minus then - v else v))) (json_tokens f x1 false)
              | JThrow => ([], EndThrow)
              | JUnk => ([], EndUnk)
              | JFuel => ([], EndFuel)
              end
          | ty =>
              if had_minus then ([], EndThrow)
              else
                match ty with
                | TComment | TWhite | TEol => json_tokens f x1 false
                | TSep _ =>
                    match token_text t with
                    | [c] => if json_separator c then cons_tok (KSep c) (json_tokens f x1 false) else ([], EndThrow)
                    | _ => ([], EndThrow)
                    end
                | TOper op => if op =? 0xC1 then json_tokens f x1 true else ([], EndThrow)
                | TKeyword _ | TIdent =>
                    match json_keyword (token_text t) with
                    | Some v => cons_tok (KVal v) (json_tokens f x1 false)
                    | None => ([], EndThrow)
                    end
                | TStr =>
                    match json_string (token_text t) with
                    | JOk cs => cons_tok (KVal (JStr cs)) (json_tokens f x1 false)
                    | JThrow => ([], EndThrow)
                    | JUnk => ([], EndUnk)
                    | JFuel => ([], EndFuel)
                    end
                | _ => ([], EndThrow)
                end
          end
      end
  end.

(* obj[key] = value *)
Fixpoint upsert (k : list Z) (v : jv) (l : list (list Z * jv)) : list (list Z * jv) :=
  match l with
  | [] => [(k, v)]
  | (k', v') :: l' => if zeqb k k' then (k, v) :: l' else (k', v') :: upsert k v l'
  end.

(* How a step of the parser ends: a result and the remaining tokens, an exception, lexer.next() on a finished generator *)
Inductive pr (A : Type) := POk (a : A) (s : list jtok) | PThrow | PEnd | PFuel.
Arguments POk {A} a s. Arguments PThrow {A}. Arguments PEnd {A}. Arguments PFuel {A}.

(* modules/json.kos:145-177 parse_array_value (run by array()), 179-227 parse_object, 229-248 parse_value; acc is the elements
   so far in reverse order *)
Fixpoint parse_value (fuel : nat) (s : list jtok) : pr jv :=
  match fuel with
  | O => PFuel
  | Datatypes.S f =>
      match s with
      | [] => PEnd
      | KVal v :: s1 => POk v s1
      | KSep c :: s1 =>
          if c =? 91 then match parse_array f s1 [] with POk l s2 => POk (JArr l) s2 | PThrow => PThrow | PEnd => PEnd | PFuel => PFuel end
          else if c =? 123 then match parse_object f s1 [] with POk l s2 => POk (JObj l) s2 | PThrow => PThrow | PEnd => PEnd | PFuel => PFuel end
          else PThrow
      end
  end
with parse_array (fuel : nat) (s : list jtok) (acc : list jv) : pr (list jv) :=
  match fuel with
  | O => PFuel
  | Datatypes.S f =>
      let elem :=
        match parse_value f s with
        | POk v s1 =>
            match s1 with
            | [] => PEnd
            | KVal _ :: _ => PThrow
            | KSep c :: s2 => if c =? 93 then POk (rev (v :: acc)) s2 else if c =? 44 then parse_array f s2 (v :: acc) else PThrow
            end
        | PThrow => PThrow | PEnd => PEnd | PFuel => PFuel
        end in
      match s with
      | [] => PEnd
      | KSep c :: s1 => if c =? 93 then POk (rev acc) s1 else if c =? 44 then parse_array f s1 acc else elem
      | KVal _ :: _ => elem
      end
  end
with parse_object (fuel : nat) (s : list jtok) (obj : list (list Z * jv)) : pr (list (list Z * jv)) :=
  match fuel with
  | O => PFuel
  | Datatypes.S f =>
      match s with
      | [] => PEnd
      | KSep c :: s1 => if c =? 125 then POk obj s1 else if c =? 44 then parse_object f s1 obj else PThrow
      | KVal (JStr key) :: s1 =>
          match s1 with
          | [] => PEnd
          | KVal _ :: _ => PThrow
          | KSep c :: s2 =>
              if c =? 58 then
                match parse_value f s2 with
                | POk v s3 =>
                    match s3 with
                    | [] => PEnd
                    | KVal _ :: _ => PThrow
                    | KSep c :: s4 => if c =? 125 then POk (upsert key v obj) s4 else if c =? 44 then parse_object f s4 (upsert key v obj) else PThrow
                    end
                | PThrow => PThrow | PEnd => PEnd | PFuel => PFuel
                end
              else PThrow
          end
      | KVal _ :: _ => PThrow
      end
  end.

(* modules/json.kos:275-285 parse, 132-140 drain_whitespace.  The generator runs in step with the parser: an exception in it
   is only seen when the parser asks for the token. *)
Definition parse_tokens (r : list jtok * jend) : jres jv :=
  let '(ts, e) := r in
  match parse_value (Datatypes.S (2 * length ts)) ts with
  | POk v [] => match e with EndOk => JOk v | EndThrow => JThrow | EndUnk => JUnk | EndFuel => JFuel end
  | POk _ (_ :: _) => JThrow
  | PThrow => JThrow
  | PEnd => match e with EndUnk => JUnk | EndFuel => JFuel | _ => JThrow end
  | PFuel => JFuel
  end.
(* the argument is the UTF-8 text of the string or the contents of the buffer *)
Definition parse_bytes (b : list Z) : jres jv := parse_tokens (json_tokens (Datatypes.S (length b)) (lexer_init b) false).
Definition parse (text : list Z) : jres jv := parse_bytes (encode_32 text).

(* base.join(",") *)
Fixpoint join (l : list (list Z)) : list Z :=
  match l with
  | [] => []
  | [s] => s
  | s :: l' => s ++ 44 :: join l'
  end.

Fixpoint all_some {A} (l : list (option A)) : option (list A) :=
  match l with
  | [] => Some []
  | Some a :: l' => match all_some l' with Some r => Some (a :: r) | None => None end
  | None :: _ => None
  end.

(* a new string: at most 0xFFFF characters *)
Definition new_string (s : list Z) : option (list Z) := if len s <=? 0xFFFF then Some s else None.
Definition quoted (s : list Z) : option (list Z) := new_string (34 :: s ++ [34]).

(* modules/json.kos:359-396 dump; None is an exception.  object.map is the property "map" of the object when it has one, and
   none of the modelled values can be called.  The string limit is applied to every text which is a result of dump and to
   every key:value text. *)
Fixpoint dump (v : jv) : option (list Z) :=
  match v with
  | JVoid => Some (zs "null")
  | JBool b => Some (if b then zs "true" else zs "false")
  | JInt z => Some (int_to_str z)
  | JStr cs => quoted cs
  | JArr l => match all_some (map dump l) with Some ts => new_string (91 :: join ts ++ [93]) | None => None end
  | JObj l =>
      if existsb (fun p => zeqb (fst p) (zs "map")) l then None
      else
        match
          all_some (map (fun p => match quoted (fst p), dump (snd p) with
                                  | Some k, Some t => new_string (k ++ 58 :: t)
                                  | _, _ => None
                                  end) l)
        with
        | Some ts => new_string (123 :: join ts ++ [125])
        | None => None
        end
  end.
