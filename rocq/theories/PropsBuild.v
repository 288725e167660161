(** Property theorems C56, continued (what a build prints). *)
From Coq Require Import String List NArith Arith Bool.
From Verif Require Import Base UAX29 Plugin GenWitness Utf8 Compile Project SpecProject BuildProofs WitnessProject PropsProject SpecBuild BuildSays.
Import ListNotations.

(** A build that succeeds says so and lists the directory out. *)
Theorem C56_says : forall seg uuid checks w o wasm outs_of backend docs t f os,
  build seg uuid checks w o wasm docs outs_of backend t f = (os, Ok tt) ->
  exists names, Forall (Forall scalar) names /\ map utf8 names = outs_of (apply_all f os) /\
    says os = lit "Build succeeded." :: map (fun n => lit "  - ./out/" ++ n) names.
Proof. exact build_says. Qed.
Print Assumptions C56_says.

(** Nothing is printed unless every document is compiled and written. *)
Theorem C56_silent : forall seg uuid checks w o wasm outs_of backend docs t f,
  (forall entries, docs = Some entries -> NoDup entries) ->
  let r := build seg uuid checks w o wasm docs outs_of backend t f in
  says (fst r) <> [] ->
  exists entries pv ps outs h' rest, docs = Some entries /\ open_plugins wasm t f = ([], Ok pv) /\ plugins_new pv = Ok ps /\
    compiled seg uuid checks w ps f 0 entries [] outs h' /\
    (forall stem gen, In (stem, gen) outs -> file (apply_all f (fst r)) (out_file backend stem) = Some (utf8 gen)) /\
    says (fst r) = lit "Build succeeded." :: rest.
Proof. exact build_silent. Qed.
Print Assumptions C56_silent.

Example C56_says_example :
  (let (os, r) := build_demo built_fs in r = Ok tt /\ says os = [lit "Build succeeded."; lit "  - ./out/a.html"; lit "  - ./out/c.html"]) /\
  (let (os, r) := build_demo (apply_all built_fs [Create (lit "docs/a.[]"); Append (lit "docs/a.[]") 91%N]) in
   os <> [] /\ says os = [] /\ exists e, r = Err e).
Proof. vm_compute. repeat split; try reflexivity; [discriminate|]. eexists. reflexivity. Qed.

(** Not every build that says so succeeds: without documents there may be no directory out. *)
Theorem C56_says_but_fails : exists os e,
  build gseg marks true echo mirror wasm_demo (Some [lit "notes.txt"]) (fun _ => []) (lit "html") table_demo
    (fs_of [(lit "docs/notes.txt", []); (html_path, [1%N])] [lit "docs"; lit "plugins"]) = (os, Err e) /\
  says os = [lit "Build succeeded."].
Proof. eexists _, _. vm_compute. split; reflexivity. Qed.
Print Assumptions C56_says_but_fails.
