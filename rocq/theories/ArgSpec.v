(* What an overload of a native function accepts. *)
From Verif Require Import Base Monad Text SortModel ValueModel ArgModel.

Section Spec.
Context {R : Type}.
Variables (deref : R -> option value) (r_of : Z -> real).
Notation out := (@out R).

(* the type of a value, and the word for it *)
Definition kind_of (v : value) : option kind :=
  match v with
  | VNull => None
  | VBool _ => Some KBool | VInt _ => Some KInt | VReal _ => Some KReal | VStr _ => Some KStr
  | VOpaque _ => Some KOpaque | VFunc _ => Some KFunc | VArr _ => Some KArr | VObj _ => Some KObj
  end.
Definition kind_eq_dec : forall a b : kind, {a = b} + {a <> b}.
Proof. decide equality. Defined.
(* what a parameter of a type makes of a value: reals take integers, other
   types only their own values *)
Definition given (k : kind) (v : value) : option value :=
  match kind_of v with
  | None => None
  | Some k' =>
    if kind_eq_dec k k' then Some v else
    match k, v with
    | KReal, VInt n => Some (VReal (r_of n))
    | _, _ => None
    end
  end.

(* one parameter and its argument, if there is one *)
Inductive fit := Takes (o : out) | Differs | Unreadable.
Definition of_kind (k : kind) (v : value) (mk : option value -> out) : fit :=
  match given k v with Some w => Takes (mk (Some w)) | None => Differs end.
Definition is_null (v : value) : bool := match v with VNull => true | _ => false end.
Definition fits (p : param) (a : option R) : fit :=
  match p with
  | PRef => Takes (ORef a)
  | PVal =>
    match option_map deref a with
    | None => Takes (OVal VNull)
    | Some None => Unreadable
    | Some (Some v) => Takes (OVal v)
    end
  | POpt k =>
    match option_map deref a with
    | None => Takes (OOpt None)
    | Some None => Unreadable
    | Some (Some v) => if is_null v then Takes (OOpt None) else of_kind k v OOpt
    end
  | PReq k =>
    match option_map deref a with
    | None => Differs
    | Some None => Unreadable
    | Some (Some v) => of_kind k v OReq
    end
  end.

(* parameters take arguments from left to right; the first that does not fit
   decides *)
Inductive verdict := Accepts (outs : list out) (rest : list R) | Refuses | Fails.
Fixpoint accept (ps : list param) (args : list R) : verdict :=
  match ps with
  | [] => Accepts [] args
  | p :: ps =>
    match fits p (hd_error args) with
    | Takes o => match accept ps (tl args) with Accepts os rest => Accepts (o :: os) rest | v => v end
    | Differs => Refuses
    | Unreadable => Fails
    end
  end.

(* an overload without and with variadic arguments *)
Definition overload (ps : list param) (args : list R) : outcome (option (list out)) :=
  match accept ps args with
  | Accepts os [] => Ok (Some os)
  | Accepts _ _ | Refuses => Ok None
  | Fails => Throw
  end.
Definition overload_refs (ps : list param) (args : list R) : outcome (option (list out * list R)) :=
  match accept ps args with
  | Accepts os rest => Ok (Some (os, rest))
  | Refuses => Ok None
  | Fails => Throw
  end.
Definition overload_values (ps : list param) (args : list R) : outcome (option (list out * list value)) :=
  match accept ps args with
  | Accepts os rest =>
    if forallb (fun q => match deref q with Some _ => true | None => false end) rest
    then Ok (Some (os, map (fun q => match deref q with Some v => v | None => VNull end) rest))
    else Throw
  | Refuses => Ok None
  | Fails => Throw
  end.

(* the whole of what a native function does for one overload *)
Definition try_overload (ps : list param) (r : reader) : outcome (@reader R * option (list out)) :=
  do a <- takes deref r_of ps (start r) ;
  do b <- end_overload (fst a) ;
  Ok (fst b, if snd b then Some (snd a) else None).
Definition try_refs (ps : list param) (r : reader) : outcome (@reader R * option (list out * list R)) :=
  do a <- takes deref r_of ps (start r) ;
  do b <- end_refs (fst a) ;
  Ok (fst b, option_map (fun l => (snd a, l)) (snd b)).
Definition try_values (ps : list param) (r : reader) : outcome (@reader R * option (list out * list value)) :=
  do a <- takes deref r_of ps (start r) ;
  do b <- end_values deref (fst a) ;
  Ok (fst b, option_map (fun l => (snd a, l)) (snd b)).

(* a native function with several overloads tries them in turn *)
Fixpoint resolve (pss : list (list param)) (r : reader) : outcome (@reader R * option (nat * list out)) :=
  match pss with
  | [] => Ok (r, None)
  | ps :: pss =>
    do a <- try_overload ps r ;
    match snd a with
    | Some os => Ok (fst a, Some (0%nat, os))
    | None => do b <- resolve pss (fst a) ; Ok (fst b, option_map (fun io => (S (fst io), snd io)) (snd b))
    end
  end.
(* the first that takes the arguments *)
Fixpoint first_fit (pss : list (list param)) (args : list R) : outcome (option (nat * list out)) :=
  match pss with
  | [] => Ok None
  | ps :: pss =>
    match overload ps args with
    | Ok (Some os) => Ok (Some (0%nat, os))
    | Ok None => do b <- first_fit pss args ; Ok (option_map (fun io => (S (fst io), snd io)) b)
    | _ => Throw
    end
  end.
End Spec.

(* how parameters are shown: brackets are around those that may be left out *)
Definition words : list (kind * bytes) :=
  [(KBool, str "boolean"); (KInt, str "integer"); (KReal, str "real"); (KStr, str "string");
   (KOpaque, str "opaque"); (KFunc, str "function"); (KArr, str "array"); (KObj, str "object")].
Definition word (k : kind) : bytes :=
  match find (fun e => if kind_eq_dec k (fst e) then true else false) words with Some (_, w) => w | None => [] end.
Definition shown (p : param) : bytes :=
  let '(w, needed) :=
    match p with PRef => (str "reference", false) | PVal => (str "value", false) | POpt k => (word k, false) | PReq k => (word k, true) end in
  if needed then w else 91 :: w ++ [93].

(* names, separated by commas *)
Fixpoint listing (l : list bytes) : bytes :=
  match l with
  | [] => []
  | [x] => x
  | x :: l => x ++ str ", " ++ listing l
  end.
