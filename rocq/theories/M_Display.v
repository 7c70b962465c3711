(* Model of the display code: get_layout, set_layout, write, create, display and set_display_mode
   (graph.py:1654-1878). Files are a function from paths to contents. What the program does not control
   (which packages are installed, what mkstemp, open, Graphviz, latex and the windowing libraries do) is the
   record [env]; it is an argument of every function, and each call of an external service gets the number
   of the call, so that the same request can be answered differently at different times.
   Printed messages are not modelled. *)
From Verif Require Import Py M_Graph M_Dot.
Set Implicit Arguments. Unset Strict Implicit.
Local Open Scope string_scope. Local Open Scope list_scope.

(* exceptions of the standard library that occur here *)
Definition OSError : exn := PyException "OSError".
Definition CalledProcessError : exn := PyException "CalledProcessError".

Definition fs := string -> option string.
Record world := mkWorld { w_graph : graph; w_files : fs; w_calls : nat }.
Definition with_graph (w : world) (g : graph) : world := mkWorld g (w_files w) (w_calls w).
Definition with_files (w : world) (f : fs) : world := mkWorld (w_graph w) f (w_calls w).

(* subprocess.run of a Graphviz program: it cannot be started, or it ends with a return code and an output *)
Inductive ran := NotStarted | Ended (code : Z) (out : string).
Record env := {
  (* graph.py:72-103 *)
  e_xdot : bool; e_dot2tex : bool; e_pil : bool; e_matplotlib : bool;
  (* tempfile.mkstemp(): the name of the new file, or None when it raises *)
  e_mkstemp : nat -> fs -> option string;
  (* open(path, 'w') succeeds *)
  e_open : nat -> string -> bool;
  (* subprocess.run([layout, '-T' + format, file]) on a file with the given content; it changes no file *)
  e_graphviz : nat -> string -> string -> string -> ran;
  (* PIL_Image.open(file) and im.show(); None: they return, Some e: one of them raises e *)
  e_show : nat -> string -> option exn;
  (* the calls of matplotlib of graph.py:1826-1844, with wait_for_click and pause *)
  e_plot : nat -> bool -> bool -> string -> option exn;
  (* the xdot window, graph.py:1851-1854 *)
  e_window : nat -> string -> option exn;
  (* dot2tex.dot2tex(string) *)
  e_to_tex : nat -> string -> res string;
  (* subprocess.call(command): it may change files and may raise; the return code is ignored *)
  e_call : nat -> list string -> fs -> fs * option exn
}.

Section Display.
  Variable E : env.
  (* str(self.name) *)
  Variable gname : string.

  (* the number of the next external call *)
  Definition tick : M world nat := fun w => (mkWorld (w_graph w) (w_files w) (Datatypes.S (w_calls w)), Ok (w_calls w)).
  (* an operation on the graph *)
  Definition lg {A} (m : M graph A) : M world A := fun w => let '(g, r) := m (w_graph w) in (with_graph w g, r).
  Definition outcome (o : option exn) : M world unit := match o with None => ret tt | Some e => fail e end.
  (* try: m  except: handler *)
  Definition try_any {A} (m handler : M world A) : M world A := fun w =>
    match m w with (w', Err _) => handler w' | r => r end.
  Definition file_put (p c : string) : M world unit := modify (fun w => with_files w (fun q => if eqb q p then Some c else w_files w q)).
  Definition file_get (p : string) : M world string := gets (fun w => match w_files w p with Some c => c | None => "" end).
  Definition file_append (p c : string) : M world unit := old <- file_get p ;; file_put p (old ++ c)%string.
  Definition file_remove (p : string) : M world unit := modify (fun w => with_files w (fun q => if eqb q p then None else w_files w q)).
  (* tempfile.mkstemp(): creates an empty file *)
  Definition mkstemp : M world string :=
    k <- tick ;; fsys <- gets w_files ;; p <- lift (e_mkstemp E k fsys) OSError ;; file_put p "" ;; ret p.
  (* open(p, 'w') and open(p, 'w+b'): the file is emptied *)
  Definition open_new (p : string) : M world unit :=
    k <- tick ;; if e_open E k p then file_put p "" else fail OSError.
  Definition command (c : list string) : M world unit :=
    k <- tick ;; fsys <- gets w_files ;; let '(f, o) := e_call E k c fsys in modify (fun w => with_files w f) ;; outcome o.
  (* self.to_string() *)
  Definition dot_text : M world string := fun w => (w, to_string gname (w_graph w)).

  Definition attr_get (a : string) : M world val := v <- gets (fun w => dget (g_attr (w_graph w)) a) ;; lift v KeyError.
  Definition attr_set (a : string) (v : val) : M world unit := lg (set_graph_attr a v).
  (* graph.py:1654-1663 get_layout *)
  Definition get_layout : M world val := attr_get "layout".
  (* graph.py:1665-1676 set_layout *)
  Definition set_layout (v : val) : M world unit :=
    attr_set "layout" v ;;
    if eqb v (VS "dot2tex") then attr_set "d2tgraphstyle" (VS "every text node part/.style={align=center}") else ret tt.
  (* graph.py:1867-1878 set_display_mode *)
  Definition set_display_mode (v : val) : M world unit := attr_set "display" v.

  (* graph.py:1700-1733 create. A layout that is no str raises TypeError in subprocess.run. p.check_returncode() raises before os.remove. *)
  Definition create (layout : val) (format : string) : M world (option string) :=
    tmp <- mkstemp ;;
    s <- dot_text ;;
    file_append tmp s ;;
    match layout with
    | VS l =>
      k <- tick ;;
      c <- file_get tmp ;;
      match e_graphviz E k l format c with
      | NotStarted => ret None
      | Ended code out => if (code =? 0)%Z then file_remove tmp ;; ret (Some out) else fail CalledProcessError
      end
    | _ => fail TypeError
    end.
  (* graph.py:1678-1698 write; [p] is the path of the open file *)
  Definition write (p : string) (layout : option val) (format : string) : M world unit :=
    layout <- match layout with
              | None | Some VNone => get_layout
              | Some l => ret l
              end ;;
    if eqb format "dot" then s <- dot_text ;; file_append p s
    else
      out <- create layout format ;;
      match out with Some o => file_append p o | None => ret tt end.

  (* graph.py:1763-1767 and 1861-1865: highlight is a list of names of nodes *)
  Definition highlight_all (highlight : option (list name)) (color : string) : M world unit :=
    match highlight with
    | None => ret tt
    | Some l => forM_ l (fun n => lg (set_node_attr n "color" (VS color)))
    end.
  (* graph.py:1774-1803: display mode 'file' and layout 'dot2tex'. The condition format != 'pdf' or format !=
     'ps' holds for every format. [tex] is None when the variable tex is unbound. *)
  Definition display_dot2tex (basename format : string) : M world unit :=
    '(tex, format) <-
      try_any
        (if e_dot2tex E then
           set_layout (VS "dot") ;;
           s <- dot_text ;;
           k <- tick ;;
           t <- (fun w => (w, e_to_tex E k s)) ;;
           ret (Some t, "pdf")
         else ret (None, format))
        (try_any
           (set_layout (VS "dot") ;;
            open_new (basename ++ ".dot")%string ;;
            l <- get_layout ;;
            write (basename ++ ".dot")%string (Some l) "dot" ;;
            command ["dot2tex"; "-t math"; (basename ++ ".dot")%string])
           (ret tt) ;;
         ret (None, "pdf")) ;;
    open_new (basename ++ ".tex")%string ;;
    tex <- lift tex NameError ;;
    file_append (basename ++ ".tex")%string tex ;;
    try_any
      (command ["latex"; basename] ;;
       (if eqb format "ps" then command ["dvips"; basename]
        else if eqb format "pdf" then command ["pdflatex"; basename]
        else ret tt) ;;
       set_layout (VS "dot2tex"))
      (ret tt).
  (* graph.py:1810-1816 and 1822-1845: a picture in a temporary file *)
  Definition picture (format : string) (use : nat -> string -> option exn) : M world unit :=
    tmp <- mkstemp ;;
    l <- get_layout ;;
    write tmp (Some l) format ;;
    k <- tick ;;
    c <- file_get tmp ;;
    outcome (use k c) ;;
    file_remove tmp.

  (* graph.py:1735-1865 display *)
  Definition display (highlight : option (list name)) (basename format : string) (pause wait_for_click : bool) : M world unit :=
    d <- attr_get "display" ;;
    if eqb d (VS "off") then ret tt
    else
      highlight_all highlight "red" ;;
      l <- get_layout ;;
      (if eqb l (VS "dot2tex") then
         d <- attr_get "display" ;;
         if eqb d (VS "file") then ret tt else attr_set "display" (VS "file")
       else ret tt) ;;
      d <- attr_get "display" ;;
      if eqb d (VS "file") then
        l <- get_layout ;;
        if eqb l (VS "dot2tex") then display_dot2tex basename format
        else
          open_new (basename ++ "." ++ format)%string ;;
          l <- get_layout ;;
          write (basename ++ "." ++ format)%string (Some l) format
      else
        (if eqb d (VS "PIL") then
           if e_pil E then picture format (e_show E) else attr_set "display" (VS "off")
         else if eqb d (VS "matplotlib") then
           if e_matplotlib E && e_pil E then picture format (fun k => e_plot E k wait_for_click pause)
           else attr_set "display" (VS "off")
         else if eqb d (VS "xdot") then
           if e_xdot E then s <- dot_text ;; k <- tick ;; outcome (e_window E k s) else attr_set "display" (VS "off")
         else ret tt) ;;
        highlight_all highlight "black".
End Display.
