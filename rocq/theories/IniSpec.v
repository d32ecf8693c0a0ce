(* When an object of sections and strings survives std.ini.format followed by
   std.ini.parse. *)
From Verif Require Import Base IniModel.

(* what is in the object *)
Definition has_str (o : object) (k v : bytes) : Prop := In (k, Scalar (IStr v)) o.
Definition has_sec (o : object) (k : bytes) : Prop := exists l, In (k, Section_ l) o.
Definition has_in (o : object) (s k v : bytes) : Prop := exists l, In (s, Section_ l) o /\ In (k, IStr v) l.

(* what is in the result *)
Definition got_str (m : list (bytes * pval)) (k v : bytes) : Prop := In (k, PStr v) m.
Definition got_sec (m : list (bytes * pval)) (k : bytes) : Prop := exists l, In (k, PSec l) m.
Definition got_in (m : list (bytes * pval)) (s k v : bytes) : Prop := exists l, In (s, PSec l) m /\ In (k, v) l.

Definition same (m : list (bytes * pval)) (o : object) : Prop :=
  (forall k v, got_str m k v <-> has_str o k v)
  /\ (forall k, got_sec m k <-> has_sec o k)
  /\ (forall s k v, got_in m s k v <-> has_in o s k v).

(* an object of sections and strings; keys are unique *)
Definition is_str (i : item) : Prop := exists s, i = IStr s.
Definition strings_only (o : object) : Prop :=
  NoDup (map fst o)
  /\ forall k e, In (k, e) o ->
       match e with
       | Scalar i => is_str i
       | Section_ l => NoDup (map fst l) /\ forall k' i, In (k', i) l -> is_str i
       end.

Definition one_line (s : bytes) : Prop := ~ In 10 s.
Definition lines_ok (o : object) : Prop :=
  (forall k v, has_str o k v -> one_line k /\ one_line v)
  /\ (forall k, has_sec o k -> one_line k)
  /\ (forall s k v, has_in o s k v -> one_line k /\ one_line v).

(* the first string does not have a key that starts with a byte order mark *)
Definition mark_ok (o : object) : Prop :=
  forall p k i q, o = p ++ (k, Scalar i) :: q ->
    Forall (fun x => exists l, snd x = Section_ l) p -> forall k', k <> [239; 187; 191] ++ k'.

(* what the parser makes of each line *)
Fixpoint reading (first : bool) (ls : list bytes) : list (outcome what) :=
  match ls with [] => [] | l :: ls => read_line first l :: reading false ls end.
(* a string at the root and, further below, a section of the same name,
   with no error above it *)
Definition collision (ls : list bytes) : Prop :=
  exists a k v b c, reading true ls = a ++ [Ok (Property k v)] ++ b ++ [Ok (Header k)] ++ c
    /\ (forall h, ~ In (Ok (Header h)) a) /\ ~ In Throw a /\ ~ In Throw b.
