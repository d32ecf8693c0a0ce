(* C64: which scripts the parser of statements accepts, and as what. *)
From Verif Require Import Base Text ExprModel ExprSpec StmtModel StmtSpec StmtProofs5 StmtProofs6.

Theorem C64_exact : forall ts l, reload ts = Acc l [] <-> Gscript l ts.
Proof. exact reload_exact. Qed.
Print Assumptions C64_exact.

Theorem C64_refuses : forall ts, reload ts = Err <-> ~ exists l, Gscript l ts.
Proof. exact reload_refuses. Qed.
Print Assumptions C64_refuses.

Theorem C64_total : forall ts, reload ts <> Fuel.
Proof. exact reload_total. Qed.
Print Assumptions C64_total.

Theorem C64_unambiguous : forall ts l l', Gscript l ts -> Gscript l' ts -> l = l'.
Proof. exact script_unique. Qed.
Print Assumptions C64_unambiguous.

Theorem C64_jumps : forall ts l r, reload ts = Acc l r -> Forall (jumps_ok []) l.
Proof. exact reload_jumps. Qed.
Print Assumptions C64_jumps.

Theorem C64_oneline : forall ts l,
  reload_oneline ts = Acc l [] <-> exists e, Gexp 11 e ts /\ l = [SReturn true (units e)].
Proof. exact oneline_exact. Qed.
Print Assumptions C64_oneline.

Definition v (s : String.string) : token := TId (str s).
Definition use (s : String.string) : list unit_ := match parse [v s] with Acc e _ => e | _ => [] end.
Definition val (s : String.string) : list unit_ := use s ++ [UCheck false].
Definition calls (s : String.string) : stmt := SExpr (use s).
Definition fin : stmt := SReturn true [].

(* if(a) if(b) c; else d;      if(a) { if(b) c; } else d; *)
Example C64_ex_else :
  reload [K "if"; P "("; v "a"; P ")"; K "if"; P "("; v "b"; P ")"; v "c"; P ";"; K "else"; v "d"; P ";"]
    = Acc [SIf false (val "a") [SIf false (val "b") [calls "c"] [calls "d"]] []; fin] [] /\
  reload [K "if"; P "("; v "a"; P ")"; P "{"; K "if"; P "("; v "b"; P ")"; v "c"; P ";"; P "}"; K "else"; v "d"; P ";"]
    = Acc [SIf false (val "a") [SIf false (val "b") [calls "c"] []] [calls "d"]; fin] [].
Proof. split; vm_compute; reflexivity. Qed.
(* while(a) while(b) c; __ifcomplete d; __ifcomplete e;      and the same after do *)
Example C64_ex_complete :
  reload [K "while"; P "("; v "a"; P ")"; K "while"; P "("; v "b"; P ")"; v "c"; P ";";
          K "__ifcomplete"; v "d"; P ";"; K "__ifcomplete"; v "e"; P ";"]
    = Acc [SWhile false (val "a") [SWhile false (val "b") [calls "c"] [calls "d"]] [calls "e"]; fin] [] /\
  reload [K "do"; v "a"; P ";"; K "while"; K "not"; P "("; v "b"; P ")"; K "__ifcomplete"; v "d"; P ";"]
    = Acc [SDo [calls "a"] true (val "b") [calls "d"]; fin] [].
Proof. split; vm_compute; reflexivity. Qed.
(* while(a);      if(a) var b;      { a };      func() { }(); *)
Example C64_ex_refused :
  reload [K "while"; P "("; v "a"; P ")"; P ";"] = Err /\
  reload [K "if"; P "("; v "a"; P ")"; K "var"; v "b"; P ";"] = Err /\
  reload [P "{"; v "a"; P "}"; P ";"] = Err /\
  reload [TFunc 0; P "("; P ")"; P ";"] = Err /\
  reload [K "var"; v "a"; P "="; P "{"; v "b"; P "="; v "c"; P "}"; P ";"] <> Err /\
  reload [K "if"; P "("; v "a"; P ")"; TFunc 0; P "("; P ")"; P ";"] <> Err.
Proof. repeat split; vm_compute; try reflexivity; discriminate. Qed.
(* while(a) { switch(b) { case c: break while; default: continue; } }
   while(a) { func f() { break; } }      break outside      a second default *)
Example C64_ex_jumps :
  reload [K "while"; P "("; v "a"; P ")"; P "{"; K "switch"; P "("; v "b"; P ")"; P "{";
          K "case"; v "c"; P ":"; K "break"; K "while"; P ";"; K "default"; P ":"; K "continue"; P ";"; P "}"; P "}"]
    = Acc [SWhile false (val "a")
             [SSwitch (val "b") [(LCase (val "c"), [SBreak ToWhile]); (LDefault, [SContinue ToNone])]] []; fin] [] /\
  reload [K "while"; P "("; v "a"; P ")"; P "{"; K "func"; v "f"; P "("; P ")"; P "{"; K "break"; P ";"; P "}"; P "}"] = Err /\
  reload [K "while"; P "("; v "a"; P ")"; P "{"; K "break"; K "switch"; P ";"; P "}"] = Err /\
  reload [K "switch"; P "("; v "a"; P ")"; P "{"; K "case"; v "b"; P ":"; K "continue"; P ";"; P "}"] = Err /\
  reload [K "while"; P "("; v "a"; P ")"; v "b"; P ";"; K "__ifcomplete"; K "break"; P ";"] = Err /\
  reload [K "switch"; P "("; v "a"; P ")"; P "{"; K "default"; P ":"; K "default"; P ":"; P "}"] = Err.
Proof. repeat split; vm_compute; reflexivity. Qed.
(* var [a, b,] = c, d;      const e;      func f(a, b,) { }      func f(a, ...) { }      func f(a, a) { } *)
Example C64_ex_definitions :
  reload [K "var"; P "["; v "a"; P ","; v "b"; P ","; P "]"; P "="; v "c"; P ","; v "d"; P ";"]
    = Acc [SVars false [([str "["; str "a"; str "b"; str "]"], use "c"); ([str "d"], [])]; fin] [] /\
  reload [K "const"; v "e"; P ";"] = Err /\
  reload [K "func"; v "f"; P "("; v "a"; P ","; v "b"; P ","; P ")"; P "{"; P "}"]
    = Acc [SFunc (str "f") [str "a"; str "b"] [fin]; fin] [] /\
  reload [K "func"; v "f"; P "("; v "a"; P ","; P "..."; P ")"; P "{"; P "}"]
    = Acc [SFunc (str "f") [str "a"; str "..."] [fin]; fin] [] /\
  reload [K "func"; v "f"; P "("; v "a"; P ","; v "a"; P ")"; P "{"; P "}"] = Err /\
  reload [K "func"; v "f"; P "("; v "a"; P "..."; P ")"; P "{"; P "}"] = Err /\
  reload [K "var"; v "__a"; P ";"] = Err.
Proof. repeat split; vm_compute; reflexivity. Qed.
(* for(each k, x -> a) b;      for(;;) b;      for(var i = a; i; i) b; *)
Example C64_ex_for :
  reload [K "for"; P "("; K "each"; v "k"; P ","; v "x"; P "->"; v "a"; P ")"; v "b"; P ";"]
    = Acc [SEach (str "k") (str "x") (use "a") [calls "b"] []; fin] [] /\
  reload [K "for"; P "("; P ";"; P ";"; P ")"; v "b"; P ";"]
    = Acc [SFor [SBlock []] [] [] [calls "b"] []; fin] [] /\
  reload [K "for"; P "("; K "var"; v "i"; P "="; v "a"; P ";"; v "i"; P ";"; v "i"; P ")"; K "break"; P ";"]
    = Acc [SFor [SVars false [([str "i"], use "a")]] (val "i") (use "i") [SBreak ToNone] []; fin] [].
Proof. repeat split; vm_compute; reflexivity. Qed.
(* return ref a;      throw a;      assert a : "m";      try a; catch(e) b; *)
Example C64_ex_simple :
  reload [K "return"; K "ref"; v "a"; P ";"; K "throw"; v "a"; P ";"; K "assert"; v "a"; P ":"; TStr (str "m"); P ";";
          K "try"; v "a"; P ";"; K "catch"; P "("; v "e"; P ")"; v "b"; P ";"; K "return"; P ";"]
    = Acc [SReturn true (use "a"); SThrow (val "a"); SAssert (val "a") (str "m");
           STry [calls "a"] (str "e") [calls "b"]; SReturn false []; fin] [].
Proof. vm_compute; reflexivity. Qed.
