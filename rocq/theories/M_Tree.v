(** * Trees on file, and redirection
    XD = trunk/SUAVE/Input_Output/XML/Data.py, XL = XML/load.py, XS = XML/save.py, FM = FreeMind/save.py, DT = D3JS/save_tree.py,
    TE = D3JS/Tree_Element.py, RD = trunk/SUAVE/Core/redirect.py
    ASCII texts only. The bytes written by xml.etree and read by xml.sax are left out: what the parser reports is the tree
    that was written, its texts cut into pieces anywhere. Times of creation (FM 100-103) are left out. *)
From Coq Require Import List Arith Ascii String Bool.
From Verif Require Import PyBase.
From Verif Require M_Data.
Import ListNotations.

Definition text := list ascii.
Definition chars (s : string) : text := list_ascii_of_string s.

(** ** XML *)
(** XD 25-55 *)
Inductive node := Node (tag : string) (attrs : list (string * text)) (content : text) (elements : list node).
Definition n_tag (n : node) := let 'Node t _ _ _ := n in t.
Definition n_attrs (n : node) := let 'Node _ a _ _ := n in a.
Definition n_content (n : node) := let 'Node _ _ c _ := n in c.
Definition n_elements (n : node) := let 'Node _ _ _ e := n in e.
(** XD 57-79 *)
Definition get_elements (n : node) (tag : string) : list node := filter (fun e => String.eqb (n_tag e) tag) (n_elements n).
(** an element of xml.etree: text before the first child, tail after the end; None and '' are both falsy *)
Inductive enode := E (tag : string) (attrs : list (string * text)) (txt tail : text) (kids : list enode).
Definition e_tail (e : enode) := let 'E _ _ _ t _ := e in t.
Definition with_tail (e : enode) (t : text) : enode := let 'E g a x _ k := e in E g a x t k.
(** XS 62-86 *)
Fixpoint to_element (d : node) : enode := let 'Node t a c es := d in E t a c [] (map to_element es).
(** str.isspace for ASCII *)
Definition blank (c : ascii) : bool := let n := nat_of_ascii c in ((9 <=? n) && (n <=? 13) || (28 <=? n) && (n <=? 32))%nat%bool.
Fixpoint lstrip (s : text) : text := match s with [] => [] | c :: r => if blank c then lstrip r else s end.
(** str.strip *)
Definition strip (s : text) : text := rev (lstrip (rev (lstrip s))).
Definition is_blank (s : text) : bool := match strip s with [] => true | _ => false end.
(** XS 126 *)
Definition margin (level : nat) : text := "010"%char :: repeat " "%char (2 * level).
Fixpoint on_last {A} (f : A -> A) (l : list A) : list A := match l with [] => [] | [x] => [f x] | x :: r => x :: on_last f r end.
(** XS 106-136: [elem] of 132-133 is the last child *)
Fixpoint indent (level : nat) (e : enode) : enode :=
  let 'E g a x t k := e in
  match k with
  | [] => match level with O => e | S _ => E g a x (if is_blank t then margin level else t) [] end
  | _ => E g a (if is_blank x then margin level ++ chars "  " else x) t (on_last (fun l => if is_blank (e_tail l) then with_tail l (margin level) else l) (map (indent (S level)) k))
  end.
(** what a parser reports *)
Inductive event := Start (tag : string) (attrs : list (string * text)) | Chars (s : text) | End (tag : string).
Inductive told : enode -> list event -> Prop :=
| told_node g a x t k cs body : List.concat cs = x -> told_all k body -> told (E g a x t k) (Start g a :: map Chars cs ++ body ++ [End g])
with told_all : list enode -> list event -> Prop :=
| told_nil : told_all [] []
| told_cons e k ev cs body : told e ev -> List.concat cs = e_tail e -> told_all k body -> told_all (e :: k) (ev ++ map Chars cs ++ body).
(** XL 66-184: the builder. The current node, its pieces of text, and the stack of those outside it *)
Record builder := Builder { b_stack : list (node * list text); b_current : node; b_parts : list text }.
Definition add_element (n e : node) : node := let 'Node t a c es := n in Node t a c (es ++ [e]).
Definition with_content (n : node) (c : text) : node := let 'Node t a _ es := n in Node t a c es.
Definition build (b : builder) (ev : event) : result builder :=
  match ev with
  | Start t a => Ok (Builder ((b_current b, b_parts b) :: b_stack b) (Node t a [] []) [])
  | End _ => let e := with_content (b_current b) (strip (List.concat (b_parts b))) in
      match b_stack b with [] => Err IndexError | (c, p) :: s => Ok (Builder s (add_element c e) p) end
  | Chars s => Ok (Builder (b_stack b) (b_current b) (b_parts b ++ [s]))
  end.
Fixpoint builds (b : builder) (evs : list event) : result builder :=
  match evs with [] => Ok b | ev :: r => bind (build b ev) (fun b' => builds b' r) end.
(** XL 47-59 *)
Definition load (evs : list event) : result node :=
  bind (builds (Builder [] (Node EmptyString [] [] []) []) evs) (fun b => match n_elements (b_current b) with n :: _ => Ok n | [] => Err IndexError end).

(** ** dictionaries *)
Section Values.
(** strings, other things that are not containers, None, lists and tuples, dictionaries *)
Inductive value := Str (s : string) | Other (k : nat) | Non | Seq (l : list value) | Dict (l : list (string * value)).
(** str() of what is not a string *)
Variable shown : value -> text.
Definition str (v : value) : text := match v with Str s => chars s | _ => shown v end.
Definition is_dict (v : value) : bool := match v with Dict _ => true | _ => false end.
(** XD 125-128; a tag that is not a string has no translate *)
Definition root_tag (l : list (string * value)) : result string :=
  match dget "tag" l with None => Ok "node"%string | Some (Str s) => Ok (M_Data.translate s) | Some _ => Err AttributeError end.
Definition with_tag (n : node) (t : string) : node := let 'Node _ a c es := n in Node t a c es.
(** XD 104-141 *)
Fixpoint from_dict (v : value) : result node :=
  match v with
  | Dict l =>
      bind (root_tag l) (fun t =>
      bind ((fix go (l : list (string * value)) : result (list node) :=
        match l with
        | [] => Ok []
        | (k, w) :: r => bind (if is_dict w then from_dict w else Ok (Node EmptyString [] (str w) [])) (fun n => bind (go r) (fun ns => Ok (with_tag n k :: ns)))
        end) l) (fun es => Ok (Node t [] [] es)))
  | _ => Err AttributeError
  end.
(** FM 54-69: the nodes added below [prev]; a node is its TEXT and the nodes below it *)
Inductive fm := Fm (t : text) (below : list fm).
Fixpoint fm_nodes (v : value) : list fm :=
  match v with
  | Dict l => map (fun kv => let '(k, w) := kv in Fm (chars k) (fm_nodes w)) l
  | Seq l => flat_map fm_nodes l
  | Non => []
  | _ => [Fm (str v) []]
  end.
(** FM 41-47: data with a tag (a string) goes below it; [data.tag] of a Data is its entry *)
Definition freemind (v : value) : list fm :=
  match v with Dict l => match dget "tag" l with Some (Str s) => fm_nodes (Dict [(s, v)]) | _ => fm_nodes v end | _ => fm_nodes v end.
(** DT 66-102 *)
Inductive d3 := D3 (name : text) (children : option (list d3)).
Fixpoint to_d3 (name : text) (v : value) : d3 :=
  match v with
  | Dict [] => D3 name (Some [D3 (chars "{}") None])
  | Dict l => D3 name (Some (map (fun kv => let '(k, w) := kv in to_d3 (chars k) w) l))
  | _ => D3 name (Some [D3 (str v) None])
  end.
(** DT 42-53: [root] is '' when not given; a tag is a string, what is saved a dictionary *)
Definition save_tree (v : value) (root : string) : result d3 :=
  match v with
  | Dict l => match dget "tag" l with
      | Some (Str s) => Ok (to_d3 (chars s) v)
      | Some w => Ok (to_d3 (str w) v)
      | None => Ok (to_d3 (chars (match root with EmptyString => "output"%string | _ => root end)) v)
      end
  | _ => Err TypeError
  end.
End Values.
(** TE 47-67: [e] of 67 has no value *)
Definition tree_append (t : d3) (element : d3) : result d3 := Err NameError.

(** ** RD 18-85 *)
(** open files and streams are numbered; the interpreter's two streams, the closed ones, the next number, what was written *)
Record sys := Sys { y_out : nat; y_err : nat; y_closed : list nat; y_next : nat; y_log : list (nat * text) }.
Inductive target := Nothing | File | Stream (h : nat).
Record redirect := Redirect { r_out : nat; r_err : nat; r_newout : bool; r_newerr : bool; r_old : option (nat * nat) }.
Definition is_open (y : sys) (h : nat) : bool := negb (existsb (Nat.eqb h) (y_closed y)).
(** 60-61, 67: the stream used and whether it was opened here *)
Definition open_target (y : sys) (t : target) (default : nat) : sys * nat * bool :=
  match t with
  | Nothing => (y, default, false)
  | File => (Sys (y_out y) (y_err y) (y_closed y) (S (y_next y)) (y_log y), y_next y, true)
  | Stream h => (y, h, false)
  end.
(** 38-70 *)
Definition make (y : sys) (o e : target) : sys * redirect :=
  let '(y1, ho, no) := open_target y o (y_out y) in let '(y2, he, ne) := open_target y1 e (y_err y1) in (y2, Redirect ho he no ne None).
(** 72-75; flushing a closed stream raises ValueError *)
Definition enter (y : sys) (r : redirect) : result (sys * redirect) :=
  if (is_open y (y_out y) && is_open y (y_err y))%bool
  then Ok (Sys (r_out r) (r_err r) (y_closed y) (y_next y) (y_log y), Redirect (r_out r) (r_err r) (r_newout r) (r_newerr r) (Some (y_out y, y_err y))) else Err ValueError.
(** 77-85 *)
Definition leave (y : sys) (r : redirect) : result sys :=
  if (is_open y (r_out r) && is_open y (r_err r))%bool
  then match r_old r with
       | None => Err AttributeError
       | Some (o, e) => Ok (Sys o e ((if r_newout r then [r_out r] else []) ++ (if r_newerr r then [r_err r] else []) ++ y_closed y) (y_next y) (y_log y))
       end
  else Err ValueError.
(** programs that print, raise, and redirect *)
Inductive prog := Print (s : text) | Complain (s : text) | Fail (e : pyerr) | Then (p q : prog) | With (o e : target) (p : prog).
Definition write (y : sys) (h : nat) (s : text) : sys * option pyerr :=
  if is_open y h then (Sys (y_out y) (y_err y) (y_closed y) (y_next y) (y_log y ++ [(h, s)]), None) else (y, Some ValueError).
Fixpoint run (p : prog) (y : sys) : sys * option pyerr :=
  match p with
  | Print s => write y (y_out y) s
  | Complain s => write y (y_err y) s
  | Fail e => (y, Some e)
  | Then p q => let '(y', r) := run p y in match r with None => run q y' | Some e => (y', Some e) end
  | With o e p =>
      let '(y1, r) := make y o e in
      match enter y1 r with
      | Err x => (y1, Some x)
      | Ok (y2, r') => let '(y3, raised) := run p y2 in match leave y3 r' with Err x => (y3, Some x) | Ok y4 => (y4, raised) end
      end
  end.

(** ** RD 93-235 *)
(** a place is a folder and a name; regular files only (links, 183-191 and 218-224, are left out) *)
Definition path := (string * string)%type.
Definition path_eqb (a b : path) : bool := (String.eqb (fst a) (fst b) && String.eqb (snd a) (snd b))%bool.
Definition files := path -> option text.
Definition fset (f : files) (p : path) (v : option text) : files := fun q => if path_eqb p q then v else f q.
Record disk := Disk { k_files : files; k_cwd : string }.
(** a name given to pull or push: in the current folder, or elsewhere *)
Inductive name := Here (n : string) | At (folder n : string).
Definition abspath (cwd : string) (n : name) : path := match n with Here b => (cwd, b) | At d b => (d, b) end.
Definition base (n : name) : string := match n with Here b => b | At _ b => b end.
(** 172-180 with [keep] false, 228-232 with [keep] true reversed: remove what is there, then copy or move; a missing source raises
    (FileNotFoundError, here GenericException) after the removal *)
Definition transfer (move force : bool) (f : files) (src dst : path) : files * option pyerr :=
  if path_eqb src dst then (f, None)
  else match f dst with
       | Some _ => if force then let f' := fset f dst None in
                     match f' src with Some c => ((if move then fset (fset f' dst (Some c)) src None else fset f' dst (Some c)), None) | None => (f', Some GenericException) end
                   else (f, None)
       | None => match f src with Some c => ((if move then fset (fset f dst (Some c)) src None else fset f dst (Some c)), None) | None => (f, Some GenericException) end
       end.
Fixpoint transfers (move force : bool) (to cwd : string) (ns : list name) (f : files) : files * option pyerr :=
  match ns with
  | [] => (f, None)
  | n :: r => let '(f', e) := transfer move force f (abspath cwd n) (to, base n) in match e with None => transfers move force to cwd r f' | Some _ => (f', e) end
  end.
(** what is done inside: anything to the disk and the list of files to push, maybe raising *)
Definition body := disk -> disk * list name * option pyerr.
(** 132-235 *)
Definition in_folder (folder : string) (pull : list name) (force : bool) (b : body) (k : disk) : disk * option pyerr :=
  let origin := k_cwd k in
  if String.eqb folder origin then let '(k', _, e) := b k in (k', e)
  else
    let '(f1, e1) := transfers false force folder origin pull (k_files k) in
    match e1 with
    | Some e => (Disk f1 origin, Some e)
    | None =>
        let '(k2, push, e2) := b (Disk f1 folder) in
        let '(f3, e3) := transfers true force origin (k_cwd k2) push (k_files k2) in
        match e3 with Some e => (Disk f3 (k_cwd k2), Some e) | None => (Disk f3 origin, e2) end
    end.
