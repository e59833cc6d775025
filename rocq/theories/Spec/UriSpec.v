(** Resolution of references, RFC 3986 section 5, and the conditions under which urllib follows it. *)
From Verif Require Import Model.Py.
Open Scope N_scope.

(** ** Components (section 3) and their text (5.3) *)
Record uri := mkUri { r_scheme : option str; r_auth : option str; r_path : str; r_query : option str; r_frag : option str }.
Definition pre_opt (c : str) (o : option str) : str := match o with Some x => c ++ x | None => [] end.
Definition hier_text (r : uri) : str := pre_opt [47; 47] (r_auth r) ++ r_path r ++ pre_opt [63] (r_query r) ++ pre_opt [35] (r_frag r).
Definition uri_text (r : uri) : str := match r_scheme r with Some s => s ++ [58] | None => [] end ++ hier_text r.

Definition alpha (c : char) : Prop := 65 <= c <= 90 \/ 97 <= c <= 122.
Definition schar (c : char) : Prop := alpha c \/ 48 <= c <= 57 \/ c = 43 \/ c = 45 \/ c = 46.
Definition scheme_name (s : str) : Prop := exists c r, s = c :: r /\ alpha c /\ Forall schar r.
Definition opt_all (P : char -> Prop) (o : option str) : Prop := match o with Some x => Forall P x | None => True end.
(** the components that the grammar allows: a text is read in one way only *)
Definition uri_ok (r : uri) : Prop :=
  match r_scheme r with Some s => scheme_name s | None => True end /\
  opt_all (fun c => c <> 47 /\ c <> 63 /\ c <> 35) (r_auth r) /\
  Forall (fun c => c <> 63 /\ c <> 35) (r_path r) /\
  opt_all (fun c => c <> 35) (r_query r) /\
  opt_all (fun c => c <> 35) (r_frag r) /\
  match r_auth r with
  | Some _ => r_path r = [] \/ exists q, r_path r = 47 :: q
  | None => ~ exists q, r_path r = 47 :: 47 :: q
  end /\
  (r_scheme r = None -> r_auth r = None -> forall a b, r_path r = a ++ 58 :: b -> In 47 a).

(** ** remove_dot_segments (5.2.4): output buffer, input buffer, result *)
Definition no_slash (s : str) : Prop := ~ In 47 s.
Definition slash_next (s : str) : Prop := s = [] \/ exists r, s = 47 :: r.
(** the output without its last segment and the slash before it, if any *)
Inductive last_removed : str -> str -> Prop :=
| LrSlash o s : no_slash s -> last_removed (o ++ 47 :: s) o
| LrNone s : no_slash s -> last_removed s [].
Inductive dots_removed : str -> str -> str -> Prop :=
| DrEnd o : dots_removed o [] o
| DrA1 o s t : dots_removed o s t -> dots_removed o (s2l "../" ++ s) t
| DrA2 o s t : dots_removed o s t -> dots_removed o (s2l "./" ++ s) t
| DrB1 o s t : dots_removed o (47 :: s) t -> dots_removed o (s2l "/./" ++ s) t
| DrB2 o t : dots_removed o [47] t -> dots_removed o (s2l "/.") t
| DrC1 o o' s t : last_removed o o' -> dots_removed o' (47 :: s) t -> dots_removed o (s2l "/../" ++ s) t
| DrC2 o o' t : last_removed o o' -> dots_removed o' [47] t -> dots_removed o (s2l "/..") t
| DrD1 o : dots_removed o (s2l ".") o
| DrD2 o : dots_removed o (s2l "..") o
| DrE o seg s t : no_slash seg -> seg <> s2l "." -> seg <> s2l ".." -> slash_next s ->
    dots_removed (o ++ 47 :: seg) s t -> dots_removed o (47 :: seg ++ s) t
| DrF o seg s t : seg <> [] -> no_slash seg -> seg <> s2l "." -> seg <> s2l ".." -> slash_next s ->
    dots_removed (o ++ seg) s t -> dots_removed o (seg ++ s) t.

(** ** merge (5.2.3) and the target of a reference (5.2.2) *)
Inductive merged (B : uri) (p : str) : str -> Prop :=
| MgAuth a : r_auth B = Some a -> r_path B = [] -> merged B p (47 :: p)
| MgDir d l : r_auth B = None \/ r_path B <> [] -> r_path B = d ++ l -> no_slash l -> d = [] \/ (exists x, d = x ++ [47]) -> merged B p (d ++ p).
Inductive target (B R : uri) : uri -> Prop :=
| TgScheme s p : r_scheme R = Some s -> dots_removed [] (r_path R) p ->
    target B R (mkUri (Some s) (r_auth R) p (r_query R) (r_frag R))
| TgAuth a p : r_scheme R = None -> r_auth R = Some a -> dots_removed [] (r_path R) p ->
    target B R (mkUri (r_scheme B) (Some a) p (r_query R) (r_frag R))
| TgEmpty : r_scheme R = None -> r_auth R = None -> r_path R = [] ->
    target B R (mkUri (r_scheme B) (r_auth B) (r_path B) (match r_query R with Some q => Some q | None => r_query B end) (r_frag R))
| TgRoot q p : r_scheme R = None -> r_auth R = None -> r_path R = 47 :: q -> dots_removed [] (r_path R) p ->
    target B R (mkUri (r_scheme B) (r_auth B) p (r_query R) (r_frag R))
| TgRel m p : r_scheme R = None -> r_auth R = None -> r_path R <> [] -> (forall q, r_path R <> 47 :: q) ->
    merged B (r_path R) m -> dots_removed [] m p ->
    target B R (mkUri (r_scheme B) (r_auth B) p (r_query R) (r_frag R)).

(** ** Where urllib agrees *)
(** the schemes whose references urllib resolves *)
Definition relative_schemes : list str := map s2l
  ["ftp"; "http"; "gopher"; "nntp"; "imap"; "wais"; "file"; "https"; "shttp"; "mms";
   "prospero"; "rtsp"; "rtsps"; "rtspu"; "sftp"; "svn"; "svn+ssh"; "ws"; "wss"]%string.
Definition visible (s : str) : Prop := Forall (fun c => 32 < c) s.
Definition lower_case (s : str) : Prop := Forall (fun c => c < 65 \/ 90 < c) s.
(** a host without square brackets and in ASCII *)
Definition plain_host (a : str) : Prop := Forall (fun c => c <> 91 /\ c <> 93 /\ c < 128) a.
Definition no_empty_segment (p : str) : Prop := ~ exists x y, p = x ++ 47 :: 47 :: y.
Definition ends_with (s t : str) : Prop := exists x, s = x ++ t.
(** no segment is "." or ".." *)
Definition no_dot_segment (p : str) : Prop :=
  forall x seg y, p = x ++ seg ++ y -> x = [] \/ ends_with x [47] -> slash_next y -> seg <> s2l "." /\ seg <> s2l "..".
(** no ";" ends the path, and the last segment does not start with ".;" or "..;" *)
Definition plain_params (p : str) : Prop :=
  ~ ends_with p [59] /\
  forall x seg y, p = x ++ seg ++ 59 :: y -> x = [] \/ ends_with x [47] -> no_slash y -> seg <> s2l "." /\ seg <> s2l "..".

(** bases: hierarchical, with an authority *)
Definition base_ok (B : uri) : Prop :=
  uri_ok B /\ visible (uri_text B) /\
  (exists s, r_scheme B = Some s /\ In s relative_schemes) /\
  (exists a, r_auth B = Some a /\ plain_host a) /\
  no_empty_segment (r_path B) /\ plain_params (r_path B) /\ r_query B <> Some [].
(** references without scheme and authority *)
Definition ref_ok (B R : uri) : Prop :=
  uri_ok R /\ visible (uri_text R) /\
  r_scheme R = None /\ r_auth R = None /\
  no_empty_segment (r_path R) /\ plain_params (r_path R) /\ r_query R <> Some [] /\
  (uri_text R = [] -> r_frag B = None).
(** texts that urllib takes apart without an exception *)
Definition uri_legal (r : uri) : Prop := uri_ok r /\ visible (uri_text r) /\ forall a, r_auth r = Some a -> plain_host a.
(** ... and puts together again, up to an empty fragment *)
Definition uri_kept (r : uri) : Prop := uri_legal r /\ r_query r <> Some [] /\ ~ ends_with (r_path r) [59].
Definition lower_scheme (r : uri) : Prop := forall s, r_scheme r = Some s -> lower_case s.

(** hosts that urllib takes: both brackets or none, an IP literal between them, and nothing that
    normalisation would turn into a delimiter; [bo] and [nk] are its checks for the last two *)
Definition host_taken (bo nk : str -> bool) (a : str) : Prop :=
  (In 91 a <-> In 93 a) /\
  (forall x h y, a = x ++ 91 :: h ++ 93 :: y -> ~ In 91 x -> ~ In 93 h -> bo h = true) /\
  (forall x h, a = x ++ 91 :: h -> ~ In 91 x -> ~ In 93 h -> bo h = true) /\
  (Exists (fun c => 128 <= c) a -> nk a = true).

(** the references that urllib resolves as RFC 3986 does *)
Inductive agreed (B R : uri) : Prop :=
| AgRelative : base_ok B -> ref_ok B R -> agreed B R
| AgAbsolute s : uri_legal B -> lower_scheme B -> uri_kept R -> r_scheme R = Some s -> lower_case s -> no_dot_segment (r_path R) ->
    uri_text B = [] \/ r_scheme B <> Some s \/ ~ In s relative_schemes \/ (exists c a, r_auth R = Some (c :: a)) -> agreed B R
| AgNetwork s c a : uri_legal B -> r_scheme B = Some s -> In s relative_schemes ->
    uri_kept R -> r_scheme R = None -> r_auth R = Some (c :: a) -> no_dot_segment (r_path R) -> agreed B R.
(** on texts; without a base, references are kept *)
Definition rfc_resolves (b u x : str) : Prop :=
  b = [] /\ x = u \/ exists B R T, b = uri_text B /\ u = uri_text R /\ agreed B R /\ target B R T /\ x = uri_text T.
