(** Where the generator puts its files, how they name packages, and the comments it prints:
    t_go_generator.cc:218-226, 422-499, 525-528, 1402-1416, 1796-1823, 2992-3067, 3185-3191. *)
From Coq Require Import ZArith List Bool Lia String.
From Verif Require Import Base Names PropNames.
Import ListNotations.
Open Scope Z_scope.
Open Scope list_scope.

Definition dot : Z := 46.
Definition slash : Z := 47.

(** ** Model: directories and files *)

(** get_real_go_module, :218-226: the namespace for go, or the name of the program, which is that
    of its IDL file. *)
Definition real_module (namespace name : bytes) : bytes := match namespace with [] => name | _ => namespace end.

(** module.find('.') with module.substr(0, pos) and module.erase(0, pos + 1) *)
Fixpoint cut_dot (s : bytes) : option (bytes * bytes) :=
  match s with
  | [] => None
  | c :: s' => if c =? dot then Some ([], s')
               else match cut_dot s' with Some (a, b) => Some (c :: a, b) | None => None end
  end.
(** The loop of init_generator, :429-450: the directories made, package_dir_ and package_name_.
    Every round makes [module] shorter; so its length and one is enough fuel. *)
Fixpoint dirs_loop (fuel : nat) (dir module name : bytes) : list bytes * bytes * bytes :=
  match fuel, module with
  | O, _ | _, [] => ([dir], dir, name)
  | S f, _ =>
    let '(made, d, n) :=
      match cut_dot module with
      | None => dirs_loop f (dir ++ [slash] ++ module) [] module
      | Some (a, rest) => dirs_loop f (dir ++ [slash] ++ a) rest name
      end in
    (dir :: made, d, n)
  end.
Definition init_dirs (out module : bytes) : list bytes * bytes * bytes :=
  dirs_loop (S (List.length module)) out module [].
Definition package_dir (out module : bytes) : bytes := snd (fst (init_dirs out module)).
Definition package_name (module : bytes) : bytes := snd (init_dirs [] module).

(** :458, :1404, :1800, below package_dir_; [svcs] are the names of the services. *)
Definition types_path : bytes := Eval vm_compute in lit "ttypes.go".
Definition service_path (s : bytes) : bytes := s ++ lit ".go".
Definition remote_path (s : bytes) : bytes := s ++ [slash] ++ s ++ lit "-remote.go".
Definition paths (svcs : list bytes) : list bytes :=
  types_path :: flat_map (fun s => [service_path s; remote_path s]) svcs.
(** All directories made by init_generator, :431 and :464-471, in their order. *)
Definition all_dirs (out module : bytes) (svcs : list bytes) : list bytes :=
  fst (fst (init_dirs out module)) ++ map (fun s => package_dir out module ++ [slash] ++ s) svcs.

(** render_includes, :491, and generate_service, :1413: the path of an import. *)
Definition include_import (module : bytes) : bytes := module.
(** generate_service_remote, :1803-1808, 1820. *)
Definition remote_import (module : bytes) : bytes := map (fun c => if c =? dot then slash else c) module.
(** type_name for a service, :3189-3191: what stands before the dot and its name. *)
Definition qualifier (module : bytes) : bytes := module.

(** ** Model: comments *)

(** t_generator::generate_docstring_comment is not in the repository: it prints the start, then
    every line of the text behind the prefix (a line that is empty and the last is dropped), then
    the end. *)
Fixpoint lines (s : bytes) : list bytes :=
  match s with
  | [] => [[]]
  | c :: s' =>
    if c =? 10 then [] :: lines s'
    else match lines s' with l :: ls => (c :: l) :: ls | [] => [[c]] end
  end.
Fixpoint drop_last_empty (ls : list bytes) : list bytes :=
  match ls with
  | [] => []
  | [l] => match l with [] => [] | _ => [l] end
  | l :: ls' => l :: drop_last_empty ls'
  end.
Definition docstring_comment (start prefix text stop : bytes) : bytes :=
  start ++ flat_map (fun l => prefix ++ l ++ [10]) (drop_last_empty (lines text)) ++ stop.
Definition s_start := Eval vm_compute in lit "/**" ++ [10].
Definition s_stop := Eval vm_compute in lit " */" ++ [10].
(** generate_go_docstring for typedefs, enums and services, :3057-3067: the prefix has no blank. *)
Definition doc_plain (doc : bytes) : bytes := docstring_comment s_start (lit " *") doc s_stop.
(** generate_go_docstring for structs and functions, :3010-3052: members with their own texts. *)
Definition member_doc (m : bytes * option bytes) : bytes :=
  lit " - " ++ member_name (fst m) ++ match snd m with Some d => lit ": " ++ d | None => [10] end.
Definition doc_text (doc : option bytes) (subheader : bytes) (ms : list (bytes * option bytes)) : bytes :=
  match doc with Some d => d | None => [] end ++
  match ms with
  | [] => []
  | _ => match doc with Some _ => [10] | None => [] end ++ subheader ++ [58; 10] ++ flat_map member_doc ms
  end.
Definition doc_members (doc : option bytes) (subheader : bytes) (ms : list (bytes * option bytes)) : bytes :=
  docstring_comment s_start (lit " * ") (doc_text doc subheader ms) s_stop.

(** ** Specification *)

(** [module] is the pieces [segs] with dots between them. *)
Inductive dotted : list bytes -> bytes -> Prop :=
| dotted_one s : ~ In dot s -> dotted [s] s
| dotted_more s segs m : ~ In dot s -> dotted segs m -> dotted (s :: segs) (s ++ dot :: m).

(** Go: the name in a package clause is an identifier, not a keyword, not the blank one. *)
Definition package_name_ok (n : bytes) : Prop := ident n /\ ~ In n go_keywords /\ n <> [95].

(** go/build: what makes a file of a directory part of the package for an operating system and an
    architecture.  [koses], [karches] are the names it knows. *)
Definition ends_with (e s : bytes) : Prop := exists a, s = a ++ e.
(** The pieces of a file's base name between underscores. *)
Inductive pieces : list bytes -> bytes -> Prop :=
| pieces_one s : ~ In 95 s -> pieces [s] s
| pieces_more s segs m : ~ In 95 s -> pieces segs m -> pieces (s :: segs) (s ++ 95 :: m).
Definition platform_ok (koses karches : list bytes) (os arch : bytes) (base : bytes) : Prop :=
  forall pre a, pieces (pre ++ [a]) base -> pre <> [] ->
    (In a koses -> a = os) /\
    (In a karches -> a = arch /\ forall pre' o, pre = pre' ++ [o] -> pre' <> [] -> In o koses -> o = os).
Definition in_build (koses karches : list bytes) (os arch : bytes) (base : bytes) : Prop :=
  ~ (exists r, base = 95 :: r) /\ ~ ends_with (lit "_test") base /\ platform_ok koses karches os arch base.

(** An import path names the directory below the root of the sources. *)
Definition import_finds (root path dir : bytes) : Prop := root ++ [slash] ++ path = dir.

(** A Go comment that begins with slash and star ends at the first star and slash. *)
Definition comment_end : bytes := [42; 47].
Definition occurs (p s : bytes) : Prop := exists a b, s = a ++ p ++ b.
(** A text that is one comment and an end of line. *)
Definition one_comment (s : bytes) : Prop :=
  exists body, s = [47; 42] ++ body ++ comment_end ++ [10] /\
    forall a b, body ++ comment_end = a ++ comment_end ++ b -> b = [].
(** A line of [s] begins with [c]. *)
Definition line_begins (c : Z) (s : bytes) : Prop :=
  exists a b, s = a ++ c :: b /\ (a = [] \/ ends_with [10] a).
