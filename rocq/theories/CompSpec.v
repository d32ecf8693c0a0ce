(* What expressions mean, without code: an evaluator of expression units that
   has one stack per expression, no constant folding and no alternative stack;
   every argument is evaluated on a stack of its own. *)
From Verif Require Import Base Text SortModel ValueModel OperModel CompModel.

(* an expression goes on, or ends in a tail call *)
Inductive step {R F : Type} := Next (s : list (ref R F)) | Tail (r : ref R F).
Arguments step : clear implicits.

Section Eval.
Context {W E R X F N D : Type} (P : prims W E R X F N D).
Notation ref := (ref R F).
Notation res := (res X).
Notation step := (step R F).
Implicit Types (u : xunit N D) (us : list (xunit N D)).

Definition lift (s : list ref) (m : W * res ref) : W * res step :=
  match m with
  | (w, Val r) => (w, Val (Next (r :: s)))
  | (w, Exn x) => (w, Exn x)
  | (w, Bad) => (w, Bad)
  | (w, Fuel) => (w, Fuel)
  end.

(* apply f to the topmost k references *)
Definition operands (k : nat) (f : list ref -> W -> W * res ref) (w : W) (s : list ref) : W * res step :=
  if (length s <? k)%nat then (w, Bad) else lift (skipn k s) (f (firstn k s) w).

Definition call (inv : invoker) (p : ptc) (args : list ref) (top : ref) (s : list ref) (w : W) : W * res step :=
  match read P w top with
  | inr x => (w, Exn x)
  | inl v =>
    match target P v with
    | None => (w, Exn (no_function P v))
    | Some f =>
      match p with
      | PtcNone => lift s (inv f (pop_sub P top) args w)
      | _ => (w, Val (Tail (Ptc p f (pop_sub P top) args)))
      end
    end
  end.

Section Units.
(* chk: whether arguments are checked; tail: whether tail calls are made *)
Variables (chk tail : bool) (e : E) (inv : @invoker W R X F).

Fixpoint eval (p : ptc) u (w : W) (s : list ref) {struct u} : W * res step :=
  let evals := fix evals (p : ptc) us (w : W) (s : list ref) : W * res step :=
    match us with
    | [] => (w, Val (Next s))
    | [u] => eval p u w s
    | u :: us =>
      match eval PtcNone u w s with
      | (w, Val (Next s)) => evals p us w s
      | r => r
      end
    end in
  (* the values of the arguments *)
  let args_of := fix args_of (args : list (list (xunit N D))) (w : W) : W * res (list ref) :=
    match args with
    | [] => (w, Val [])
    | us :: args =>
      match evals PtcNone us w [] with
      | (w, Val (Next [r])) =>
        match args_of args w with
        | (w, Val l) => (w, Val (r :: l))
        | f => f
        end
      | (w, Val _) => (w, Bad)
      | (w, Exn x) => (w, Exn x)
      | (w, Bad) => (w, Bad)
      | (w, Fuel) => (w, Fuel)
      end
    end in
  (* one branch: us replaces the condition, or is assigned to it *)
  let branch us (assign : bool) (p : ptc) (w : W) (c : ref) (s : list ref) : W * res step :=
    match us with
    | [] => (w, Val (Next (c :: s)))
    | _ =>
      if assign then
        match evals PtcNone us w [] with
        | (w, Val (Next [r])) =>
          match read P w r with
          | inr x => (w, Exn x)
          | inl v =>
            match open P c w with
            | (w, inr x) => (w, Exn x)
            | (w, inl _) => (store P c v w, Val (Next (c :: s)))
            end
          end
        | (w, Val _) => (w, Bad)
        | r => r
        end
      else
        match evals p us w [] with
        | (w, Val (Next [r])) => (w, Val (Next (r :: s)))
        | (w, Val (Next _)) => (w, Bad)
        | r => r
        end
    end in
  let p := if tail then p else PtcNone in
  match u with
  | ULit v => (w, Val (Next (Temp v :: s)))
  | URef nm => lift s (pushed (fetch P e nm) [] w)
  | UFn d => lift s (pushed (closure P e d) [] w)
  | UIf t f assign =>
    match s with
    | [] => (w, Bad)
    | c :: s =>
      match read P w c with
      | inr x => (w, Exn x)
      | inl v => branch (if test P v then t else f) assign p w c s
      end
    end
  | UCoalesce n assign =>
    match s with
    | [] => (w, Bad)
    | c :: s =>
      match read P w c with
      | inr x => (w, Exn x)
      | inl VNull => branch n assign p w c s
      | inl _ => (w, Val (Next (c :: s)))
      end
    end
  | UCall args =>
    match args_of args w with
    | (w, Val l) => match s with top :: s => call inv p l top s w | [] => (w, Bad) end
    | (w, Exn x) => (w, Exn x)
    | (w, Bad) => (w, Bad)
    | (w, Fuel) => (w, Fuel)
    end
  | UOp o assign => operands (arity o) (op_sem P o assign) w s
  | UArray n => operands n (array_sem P) w s
  | UObject keys => operands (length keys) (object_sem P keys) w s
  | UVariadic args =>
    match args_of args w with
    | (w, Val [top; g]) =>
      match expand P inv g w with
      | (w, Val l) => call inv p l top s w
      | (w, Exn x) => (w, Exn x)
      | (w, Bad) => (w, Bad)
      | (w, Fuel) => (w, Fuel)
      end
    | (w, Val _) => (w, Bad)
    | (w, Exn x) => (w, Exn x)
    | (w, Bad) => (w, Bad)
    | (w, Fuel) => (w, Fuel)
    end
  | UCheck by_ref =>
    if chk then operands 1 (top1 (check_sem P by_ref)) w s else (w, Val (Next s))
  | UImport args =>
    match args_of args w with
    | (w, Val (path :: l)) =>
      match read P w path with
      | inr x => (w, Exn x)
      | inl v =>
        match load P v w with
        | (w, inr x) => (w, Exn x)
        | (w, inl f) => lift s (inv f Void l w)
        end
      end
    | (w, Val []) => (w, Bad)
    | (w, Exn x) => (w, Exn x)
    | (w, Bad) => (w, Bad)
    | (w, Fuel) => (w, Fuel)
    end
  | UCatch us =>
    match evals PtcNone us w [] with
    | (w, Val (Next _)) => (w, Val (Next (Temp VNull :: s)))
    | (w, Exn x) => (w, Val (Next (Temp (xval P x) :: s)))
    | (w, Val (Tail _)) => (w, Bad)
    | r => r
    end
  end.

Fixpoint evals (p : ptc) us (w : W) (s : list ref) : W * res step :=
  match us with
  | [] => (w, Val (Next s))
  | [u] => eval p u w s
  | u :: us =>
    match eval PtcNone u w s with
    | (w, Val (Next s)) => evals p us w s
    | r => r
    end
  end.

(* expression statements, each on an empty stack; the values are discarded *)
Fixpoint eval_exprs (last : ptc) (l : list (list (xunit N D))) (w : W) : W * res (option ref) :=
  match l with
  | [] => (w, Val None)
  | us :: l =>
    match evals (match l with [] => last | _ => PtcNone end) us w [] with
    | (w, Val (Next _)) => eval_exprs last l w
    | (w, Val (Tail r)) => (w, Val (Some r))
    | (w, Exn x) => (w, Exn x)
    | (w, Bad) => (w, Bad)
    | (w, Fuel) => (w, Fuel)
    end
  end.

(* the result of a function body *)
Definition eval_body (b : body N D) (w : W) : W * res ref :=
  match eval_exprs (match b_ret b with None => PtcVoid | _ => PtcNone end) (b_exprs b) w with
  | (w, Val (Some r)) => (w, Val r)
  | (w, Val None) =>
    match b_ret b with
    | None | Some (_, []) => (w, Val Void)
    | Some (by_ref, us) =>
      match evals (if by_ref then PtcRef else PtcVal) us w [] with
      | (w, Val (Tail r)) => (w, Val r)
      | (w, Val (Next (Void :: _))) => (w, Val Void)
      | (w, Val (Next (r :: _))) => check_sem P by_ref r w
      | (w, Val (Next [])) => (w, Bad)
      | (w, Exn x) => (w, Exn x)
      | (w, Bad) => (w, Bad)
      | (w, Fuel) => (w, Fuel)
      end
    end
  | (w, Exn x) => (w, Exn x)
  | (w, Bad) => (w, Bad)
  | (w, Fuel) => (w, Fuel)
  end.
End Units.

Fixpoint means_ptc (chk tail : bool) (fdefs : F -> @fdef W E R X F N D) (fuel : nat) : invoker :=
  fun f self args w =>
  match fuel with
  | O => (w, Fuel)
  | S fuel =>
    let inv := complete P (means_ptc chk tail fdefs fuel) fuel in
    match fdefs f with
    | Native m => run_native inv (m self args w)
    | Script b enter =>
      match enter self args w with
      | (w, inr x) => (w, Exn x)
      | (w, inl e) => eval_body chk tail e inv b w
      end
    end
  end.
Definition means (chk tail : bool) fdefs (fuel : nat) : invoker :=
  complete P (means_ptc chk tail fdefs fuel) fuel.
End Eval.

(* ---- well-formed expressions ---- *)

Section Shape.
Context {N D : Type}.
Implicit Types (u : xunit N D) (us : list (xunit N D)).

(* the number of references on the stack after u, if there were h before *)
Fixpoint height u (h : nat) {struct u} : option nat :=
  let heights := fix heights us (h : nat) : option nat :=
    match us with
    | [] => Some h
    | u :: us => match height u h with Some h => heights us h | None => None end
    end in
  let one us : bool := match heights us 0%nat with Some 1%nat => true | _ => false end in
  let all_one := fix all_one (args : list (list (xunit N D))) : bool :=
    match args with [] => true | us :: args => one us && all_one args end in
  let opt us : bool := match us with [] => true | _ => one us end in
  let pop (k : nat) : option nat := if (k <=? h)%nat then Some (S (h - k)) else None in
  match u with
  | ULit _ | URef _ | UFn _ => Some (S h)
  | UIf t f _ => if opt t && opt f then pop 1%nat else None
  | UCoalesce n _ => if opt n then pop 1%nat else None
  | UCall args => if all_one args then pop 1%nat else None
  | UOp o assign =>
    match o, assign with
    | (xo_cmp_eq | xo_cmp_ne | xo_notb), true => None
    | _, _ => pop (arity o)
    end
  | UArray n => pop n
  | UObject keys => pop (length keys)
  | UVariadic args => if all_one args && (length args =? 2)%nat then Some (S h) else None
  | UCheck _ => pop 1%nat
  | UImport args => if all_one args && (1 <=? length args)%nat then Some (S h) else None
  | UCatch us => if one us then Some (S h) else None
  end.
Fixpoint heights us (h : nat) : option nat :=
  match us with
  | [] => Some h
  | u :: us => match height u h with Some h => heights us h | None => None end
  end.
(* us leaves exactly one reference *)
Definition whole us : Prop := heights us 0 = Some 1%nat.

(* no call evaluates its arguments on the alternative stack *)
Fixpoint plain (lv : Z) u : bool :=
  match u with
  | UIf t f _ => forallb (plain lv) t && forallb (plain lv) f
  | UCoalesce n _ => forallb (plain lv) n
  | UCall args => ((lv <? 1) || existsb (existsb clobbers) args) && forallb (forallb (plain lv)) args
  | UVariadic args | UImport args => forallb (forallb (plain lv)) args
  | UCatch us => forallb (plain lv) us
  | _ => true
  end.
(* ... within the operand of a catch *)
Fixpoint calm (lv : Z) u : bool :=
  match u with
  | UIf t f _ => forallb (calm lv) t && forallb (calm lv) f
  | UCoalesce n _ => forallb (calm lv) n
  | UCall args | UVariadic args | UImport args => forallb (forallb (calm lv)) args
  | UCatch us => forallb (plain lv) us
  | _ => true
  end.
Definition whole_body (b : body N D) : Prop :=
  Forall whole (b_exprs b) /\ match b_ret b with Some (_, us) => us = [] \/ whole us | None => True end.
Definition calm_body (lv : Z) (b : body N D) : bool :=
  forallb (forallb (calm lv)) (b_exprs b) &&
  match b_ret b with Some (_, us) => forallb (calm lv) us | None => true end.
End Shape.
