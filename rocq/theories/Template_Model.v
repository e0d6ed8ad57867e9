(** * G-code templates

    Models [GcodeTemplateResolver::resolveGCodeTemplate] with [processStatement] and
    [processExpression] (/repo/src/gcode_export/GcodeTemplateResolver.cpp:63-315).  The
    formula engine is a parameter.  The regular expression is replaced by a scanner that
    finds the same matches and the same groups. *)
From Coq Require Import ZArith QArith Qround Ascii String.
From stdpp Require Import base list.
Local Open Scope Z_scope.

Notation text := (list ascii).
Definition T (s : string) : text := list_ascii_of_string s.
Definition lbrace : ascii := "{"%char.
Definition rbrace : ascii := "}"%char.
Definition newline : ascii := "010"%char.
(** [\s]: what [isspace] accepts. *)
Definition is_space (c : ascii) : bool :=
  let n := nat_of_ascii c in (Nat.eqb n 32 || (Nat.leb 9 n && Nat.leb n 13))%bool.

(** ** Matches of the regular expression (GcodeTemplateResolver.cpp:248)

    {\s*(if|else|elif|endif)?\s*([^{}]*?)\s*(?:,\s*([^{},QQ]+))?\s*}(\n?)
    where Q stands for the two quotation marks.
    Everything between the braces matches, whatever it is, as long as it has no braces:
    so the leftmost match starts at the first '{' whose next brace is a '}'. *)
Inductive token := Txt (t : text) | Blk (body : text) (eol : bool).
Definition opened (cur : option text) : text := match cur with Some b => lbrace :: b | None => [] end.
Definition pre (t : text) : list token := match t with [] => [] | _ => [Txt t] end.
(** The loop of [resolveGCodeTemplate] (:285-308) as far as it cuts up the text: [txt] is
    text since the last match, [cur] what followed the last open brace. *)
Fixpoint scan (input : text) (txt : text) (cur : option text) : list token :=
  match input with
  | [] => pre (txt ++ opened cur)
  | c :: r =>
    if Ascii.eqb c lbrace then scan r (txt ++ opened cur) (Some [])
    else
      match cur with
      | None => scan r (txt ++ [c]) None
      | Some b =>
        if Ascii.eqb c rbrace then
          match r with
          | c' :: r' => if Ascii.eqb c' newline then pre txt ++ Blk b true :: scan r' [] None else pre txt ++ Blk b false :: scan r [] None
          | [] => pre txt ++ [Blk b false]
          end
        else scan r txt (Some (b ++ [c]))
      end
  end.

(** Groups: the word is tried in the order of the regular expression. *)
Inductive word := If | Else | Elif | Endif.
Fixpoint drop_space (t : text) : text :=
  match t with [] => [] | c :: r => if is_space c then drop_space r else t end.
Fixpoint after_word (w t : text) : option text :=
  match w, t with
  | [], _ => Some t
  | c :: w, d :: t => if Ascii.eqb c d then after_word w t else None
  | _ :: _, [] => None
  end.
Definition condition (t : text) : option word * text :=
  match after_word (T "if") t with
  | Some r => (Some If, r)
  | None =>
    match after_word (T "else") t with
    | Some r => (Some Else, r)
    | None =>
      match after_word (T "elif") t with
      | Some r => (Some Elif, r)
      | None =>
        match after_word (T "endif") t with
        | Some r => (Some Endif, r)
        | None => (None, t)
        end
      end
    end
  end.
(** The text before and after the last comma. *)
Fixpoint last_comma (t : text) : option (text * text) :=
  match t with
  | [] => None
  | c :: r =>
    match last_comma r with
    | Some p => Some (c :: p.1, p.2)
    | None => if Ascii.eqb c ","%char then Some ([], r) else None
    end
  end.
Definition drop_space_end (t : text) : text := rev (drop_space (rev t)).
Definition quote (c : ascii) : bool := Ascii.eqb c "'"%char || Ascii.eqb c """"%char.
(** [\s*([^{},QQ]+)] on a whole text that is not empty: at least one character is left. *)
Definition extruder_group (x : text) : text :=
  match drop_space x with [] => match rev x with c :: _ => [c] | [] => [] end | r => r end.
(** The word, the expression and the extruder number. *)
Definition groups (body : text) : option word * text * option text :=
  let p := condition (drop_space body) in
  let rest := drop_space p.2 in
  match last_comma rest with
  | Some (a, x) =>
    match x with
    | [] => (p.1, drop_space_end rest, None)
    | _ :: _ =>
      if existsb quote x then (p.1, drop_space_end rest, None)
      else (p.1, drop_space_end a, Some (extruder_group x))
    end
  | None => (p.1, drop_space_end rest, None)
  end.

(** ** Evaluation *)

Inductive value := VBool (b : bool) | VInt (z : Z) | VString (s : text) | VDouble (q : Q) | VOther (n : nat).
(** [Failed]: the template is not resolved; [Crash]: an exception leaves the resolver, or
    a negative floating point number is converted to an unsigned one. *)
Inductive outcome (A : Type) := Got (a : A) | Failed | Crash.
Arguments Got {A}. Arguments Failed {A}. Arguments Crash {A}.
Definition obind {A B} (m : outcome A) (f : A -> outcome B) : outcome B :=
  match m with Got a => f a | Failed => Failed | Crash => Crash end.

Inductive cstate := OutsideCondition | ConditionFalse | ConditionTrue | ConditionDone.
Inductive instruction := Skip | Evaluate | EvaluateAndWrite.

Section resolver.
  (** The formula engine: parsing and evaluating an expression with the settings of an
      extruder, or with the global ones; printing a value; [std::stoi] ([None]: it
      throws); the number of extruders. *)
  Context (eval : option nat -> text -> option value) (show : value -> text) (stoi : text -> option Z) (count : nat).

  (** The environment of an extruder number, if there is one (:19-41, :262-268). *)
  Definition exists_env (e : option Z) : bool :=
    match e with None => true | Some z => (0 <=? z) && (z <? Z.of_nat count) end.

  (** [processExpression], the evaluation (:166-206). *)
  Definition evaluate_in (ctx : option nat) (expr : text) (ext : option text) : outcome value :=
    obind match ext with
          | None => Got (Z.of_nat <$> ctx)
          | Some e =>
            if negb (exists_env (Z.of_nat <$> ctx)) then Crash  (* environments.at *)
            else
              match eval ctx e with
              | None => Failed
              | Some (VInt z) => Got (Some z)
              | Some (VString s) => match stoi s with Some z => Got (Some z) | None => Crash end
              | Some (VDouble q) => if Qfloor q <? 0 then Crash else Got (Some (Qfloor q))
              | Some _ => Failed
              end
          end
      (fun here =>
         let here := if exists_env here then here else None in
         match eval (Z.to_nat <$> here) expr with None => Failed | Some v => Got v end).

  (** [processExpression], what to do (:91-160); [None]: an error. *)
  Definition instruct (st : cstate) (w : option word) : option (instruction * cstate) :=
    match w with
    | None => Some (match st with OutsideCondition | ConditionTrue => EvaluateAndWrite | _ => Skip end, st)
    | Some If => match st with OutsideCondition => Some (Evaluate, st) | _ => None end
    | Some w =>
      match st with
      | OutsideCondition => None
      | _ =>
        let st := match st with ConditionTrue => ConditionDone | _ => st end in
        match w with
        | Elif => Some (match st with ConditionFalse => Evaluate | _ => Skip end, st)
        | Else => Some (Skip, match st with ConditionFalse => ConditionTrue | _ => st end)
        | _ => Some (Skip, OutsideCondition)
        end
      end
    end.

  (** [processExpression] (:72-237). *)
  Definition process_block (ctx : option nat) (body : text) (eol : bool) (output : text) (st : cstate) : outcome (text * cstate) :=
    let g := groups body in
    match instruct st g.1.1 with
    | None => Failed
    | Some (Skip, st) => Got (output, st)
    | Some (i, st) =>
      obind (evaluate_in ctx g.1.2 g.2) (fun v =>
        match i with
        | Evaluate => Got (output, match v with VBool b => if b then ConditionTrue else ConditionFalse | _ => st end)
        | _ => Got (output ++ show v ++ (if eol then [newline] else []), st)
        end)
    end.

  (** [processStatement] (:63-69). *)
  Definition process_text (t : text) (output : text) (st : cstate) : text :=
    match st with OutsideCondition | ConditionTrue => output ++ t | _ => output end.

  (** The loop (:285-308). *)
  Fixpoint process (ctx : option nat) (toks : list token) (output : text) (st : cstate) : outcome text :=
    match toks with
    | [] => Got output
    | Txt t :: r => process ctx r (process_text t output st) st
    | Blk body eol :: r => obind (process_block ctx body eol output st) (fun p => process ctx r p.1 p.2)
    end.

  (** The end (:310-313). *)
  Definition finish (output : text) : text :=
    match rev output with
    | [] => output
    | c :: _ => if Ascii.eqb c newline then output else output ++ [newline]
    end.

  (** [resolveGCodeTemplate] (:239-316). *)
  Definition resolve (ctx : option nat) (input : text) : outcome text :=
    match process ctx (scan input [] None) [] OutsideCondition with
    | Got out => Got (finish out)
    | Failed => Got (finish input)
    | Crash => Crash
    end.
End resolver.
