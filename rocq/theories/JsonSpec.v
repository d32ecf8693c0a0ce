(* What std.json.parse makes of the output of std.json.format. *)
From Verif Require Import Base UtfModel UtfSpec JsonModel.

(* the characters of a string; a byte that does not begin one that utf8_decode
   accepts is U+FFFD *)
Fixpoint points (fuel : nat) (s : bytes) : list Z :=
  match fuel, s with
  | S fuel, b :: t =>
      match utf8_decode s with
      | Some (cp, t') => cp :: points fuel t'
      | None => 0xFFFD :: points fuel t
      end
  | _, _ => []
  end.
Definition repair (s : bytes) : bytes := concat (map rfc3629 (points (length s) s)).

(* reading what was written for a finite real *)
Definition back (N : numerics) (r : Z) : option Z := read N (show N r).

Fixpoint norm (N : numerics) (v : value) : value :=
  match v with
  | VNull | VOther => VNull
  | VBool b => VBool b
  | VInt z => match back N (of_int N z) with Some r => VReal r | None => VNull end
  | VReal r => if finite N r then match back N r with Some r' => VReal r' | None => VNull end else VNull
  | VStr s => VStr (repair s)
  | VArr l => VArr (map (norm N) l)
  | VObj l => VObj (map (fun kx => (repair (fst kx), norm N (snd kx))) l)
  end.

(* the number of non-empty containers around the innermost value *)
Fixpoint depth (v : value) : nat :=
  match v with
  | VArr l => match l with [] => O | _ => S (fold_right (fun x n => Nat.max (depth x) n) O l) end
  | VObj l => match l with [] => O | _ => S (fold_right (fun kx n => Nat.max (depth (snd kx)) n) O l) end
  | _ => O
  end.

(* keys that become equal, and numbers that overflow, are rejected *)
Fixpoint clean (N : numerics) (v : value) : Prop :=
  match v with
  | VInt z => back N (of_int N z) <> None
  | VReal r => finite N r = true -> back N r <> None
  | VArr l => fold_right (fun x P => clean N x /\ P) True l
  | VObj l => NoDup (map (fun kx => repair (fst kx)) l) /\ fold_right (fun kx P => clean N (snd kx) /\ P) True l
  | _ => True
  end.
Definition accepted (N : numerics) (v : value) : Prop := (depth v <= 32)%nat /\ clean N v.

(* RFC 8259, section 6 *)
Definition digits (s : bytes) : Prop := s <> [] /\ Forall (fun c => 48 <= c <= 57) s.
Definition json_number (s : bytes) : Prop :=
  exists sign int frac exp, s = sign ++ int ++ frac ++ exp
    /\ (sign = [] \/ sign = [45]) /\ digits int
    /\ (frac = [] \/ exists d, frac = 46 :: d /\ digits d)
    /\ (exp = [] \/ exists e sg d, exp = e :: sg ++ d /\ (e = 101 \/ e = 69) /\ (sg = [] \/ sg = [43] \/ sg = [45]) /\ digits d).

(* put_DD writes numbers; integers are finite *)
Definition sane (N : numerics) : Prop :=
  (forall r, finite N r = true -> json_number (show N r)) /\ forall z, finite N (of_int N z) = true.

(* strings are made of bytes *)
Fixpoint bytes_only (v : value) : Prop :=
  match v with
  | VStr s => all_bytes s
  | VArr l => fold_right (fun x P => bytes_only x /\ P) True l
  | VObj l => fold_right (fun kx P => (all_bytes (fst kx) /\ bytes_only (snd kx)) /\ P) True l
  | _ => True
  end.
Definition blank (s : bytes) : Prop := Forall (fun c => c = 32 \/ c = 9 \/ c = 13 \/ c = 10) s.

(* values that are written without loss *)
Fixpoint pure (N : numerics) (v : value) : Prop :=
  match v with
  | VNull | VBool _ => True
  | VInt _ | VOther => False
  | VReal r => finite N r = true /\ back N r = Some r
  | VStr s => utf8_wf s
  | VArr l => fold_right (fun x P => pure N x /\ P) True l
  | VObj l => NoDup (map fst l) /\ fold_right (fun kx P => (utf8_wf (fst kx) /\ pure N (snd kx)) /\ P) True l
  end.

(* the bytes after which do_load_next leaves its buffer *)
Definition overrun (r : bytes) : Prop :=
  exists b t, r = b :: t /\ (b = 0xFF \/ (0xFC <= b <= 0xFE /\ (5 <= length t)%nat)).
