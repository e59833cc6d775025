(** urllib.parse.urljoin of CPython 3.11 (Lib/urllib/parse.py of 3.11.10, the line numbers
    below are of that file), which smart_urljoin of pymantic/util.py 92-101 calls for
    every IRI of a Turtle document.  Arguments are str; allow_fragments is true; the
    cache of urlsplit is not visible.  Two checks on network locations are arguments:
    [bracket_ok] (a host between square brackets: 441-448, ipaddress) and [nfkc_ok] (a
    network location with other characters than ASCII: 421-437, unicodedata). *)
From Verif Require Import Model.Py Model.Codec.
Open Scope N_scope.

(** 53-66 *)
Definition uses_relative : list str := map s2l
  [""; "ftp"; "http"; "gopher"; "nntp"; "imap"; "wais"; "file"; "https"; "shttp"; "mms";
   "prospero"; "rtsp"; "rtsps"; "rtspu"; "sftp"; "svn"; "svn+ssh"; "ws"; "wss"]%string.
Definition uses_netloc : list str := map s2l
  [""; "ftp"; "http"; "gopher"; "nntp"; "telnet"; "imap"; "wais"; "file"; "mms"; "https"; "shttp";
   "snews"; "prospero"; "rtsp"; "rtsps"; "rtspu"; "rsync"; "svn"; "svn+ssh"; "sftp"; "nfs"; "git";
   "git+ssh"; "ws"; "wss"]%string.
Definition uses_params : list str := map s2l
  [""; "ftp"; "hdl"; "prospero"; "http"; "imap"; "https"; "shttp"; "rtsp"; "rtsps"; "rtspu"; "sip";
   "sips"; "mms"; "sftp"; "tel"]%string.
Definition str_mem (s : str) (l : list str) : bool := if in_dec str_eq_dec s l then true else false.

(** scheme_chars: 82-85; str.lower on them *)
Definition ascii_letter (c : char) : bool := in_range 97 122 c || in_range 65 90 c.
Definition scheme_char (c : char) : bool :=
  ascii_letter c || in_range 48 57 c || (c =? 43) || (c =? 45) || (c =? 46).
Definition lower_char (c : char) : char := if in_range 65 90 c then c + 32 else c.
(** lstrip(_WHATWG_C0_CONTROL_OR_SPACE), 89, 477; _UNSAFE_URL_BYTES_TO_REMOVE, 92, 480-482 *)
Fixpoint lstrip_c0 (s : str) : str := match s with c :: r => if c <=? 32 then lstrip_c0 r else s | [] => [] end.
Definition safe_char (c : char) : bool := negb ((c =? 9) || (c =? 13) || (c =? 10)).

(** _splitnetloc(url, 2): 413-419, applied to what follows the two slashes *)
Fixpoint split_netloc (s : str) : str * str :=
  match s with
  | [] => ([], [])
  | c :: r => if (c =? 47) || (c =? 63) || (c =? 35) then ([], s)
              else let '(a, b) := split_netloc r in (c :: a, b)
  end.
(** _splitparams: 404-411; [last_slash]: the text up to and including the last slash, and the rest *)
Fixpoint last_slash (s : str) : str * str :=
  match s with
  | [] => ([], [])
  | c :: r => match last_slash r with
              | ([], l) => if c =? 47 then ([c], l) else ([], c :: l)
              | (d, l) => (c :: d, l)
              end
  end.
Definition split_params (url : str) : str * str :=
  let '(d, l) := last_slash url in
  let '(a, found, p) := partition l 59 in
  if found then (d ++ a, p) else (url, []).

(** str.split("/") and "/".join *)
Fixpoint split_slash (s : str) : list str :=
  match s with
  | [] => [[]]
  | c :: r => if c =? 47 then [] :: split_slash r
              else match split_slash r with x :: l => (c :: x) :: l | [] => [[c]] end
  end.
Fixpoint join_slash (l : list str) : str :=
  match l with
  | [] => []
  | [x] => x
  | x :: r => x ++ 47 :: join_slash r
  end.

Record parsed := mkParsed { u_scheme : str; u_netloc : str; u_path : str; u_params : str; u_query : str; u_fragment : str }.

Section Urllib.
  Variables bracket_ok nfkc_ok : str -> bool.

  (** 486-492: the scheme, or the default, and the rest *)
  Definition split_scheme (url scheme : str) : str * str :=
    let '(a, found, r) := partition url 58 in
    match found, a with
    | true, c :: _ => if ascii_letter c && forallb scheme_char a then (map lower_char a, r) else (scheme, url)
    | _, _ => (scheme, url)
    end.
  (** 493-500 and _checknetloc, 421-437, 505; [_check_bracketed_host] gets the text after the
      first "[" up to the next "]" *)
  Definition check_netloc (netloc : str) : bool :=
    let o := str_in_char 91 netloc in let c := str_in_char 93 netloc in
    if negb (Bool.eqb o c) then false
    else (if o then bracket_ok (fst (fst (partition (snd (partition netloc 91)) 93))) else true)
         && (if forallb (fun c => c <? 128) netloc then true else nfkc_ok netloc).
  (** urlsplit: 453-507, and urlparse: 374-402 *)
  Definition urlparse (url scheme : str) : res parsed :=
    let url := filter safe_char (lstrip_c0 url) in
    let '(scheme, url) := split_scheme url scheme in
    let '(netloc, url) := if startswith url [47; 47] then split_netloc (skipn 2 url) else ([], url) in
    if check_netloc netloc then
      let '(url, _, fragment) := partition url 35 in
      let '(url, _, query) := partition url 63 in
      let '(path, params) := if str_mem scheme uses_params && str_in_char 59 url then split_params url else (url, []) in
      Ok (mkParsed scheme netloc path params query fragment)
    else Err ValueError.

  (** urlunsplit: 520-537, and urlunparse: 509-518 *)
  Definition urlunparse (u : parsed) : str :=
    let url := u_path u ++ (if str_truthy (u_params u) then 59 :: u_params u else []) in
    let url :=
      if str_truthy (u_netloc u) || (str_truthy (u_scheme u) && str_mem (u_scheme u) uses_netloc) || startswith url [47; 47]
      then [47; 47] ++ u_netloc u ++ (if str_truthy url && negb (startswith url [47]) then 47 :: url else url)
      else url in
    (if str_truthy (u_scheme u) then u_scheme u ++ [58] else []) ++ url
    ++ (if str_truthy (u_query u) then 63 :: u_query u else [])
    ++ (if str_truthy (u_fragment u) then 35 :: u_fragment u else []).

  (** urljoin 569-605: the segments of the joined path *)
  Definition seg_dot (s : str) : bool := str_eqb s [46].
  Definition seg_dots (s : str) : bool := str_eqb s [46; 46].
  (** 569-573 *)
  Definition base_parts (bpath : str) : list str :=
    let l := split_slash bpath in
    if str_truthy (last l []) then removelast l else l.
  (** segments[1:-1] = filter(None, segments[1:-1]): 582 *)
  Definition filter_inner (l : list str) : list str :=
    match l with
    | [] => []
    | [x] => [x]
    | x :: r => x :: filter str_truthy (removelast r) ++ [last r []]
    end.
  (** 576-582 *)
  Definition join_segments (bpath path : str) : list str :=
    if startswith path [47] then split_slash path
    else filter_inner (base_parts bpath ++ split_slash path).
  (** 584-597; list.pop on an empty list is caught *)
  Fixpoint resolve (resolved : list str) (segments : list str) : list str :=
    match segments with
    | [] => resolved
    | seg :: r =>
        if seg_dots seg then resolve (removelast resolved) r
        else if seg_dot seg then resolve resolved r
        else resolve (resolved ++ [seg]) r
    end.
  (** 599-605 *)
  Definition resolved_path (segments : list str) : str :=
    let l := resolve [] segments in
    let l := if seg_dot (last segments []) || seg_dots (last segments []) then l ++ [[]] else l in
    match join_slash l with [] => [47] | p => p end.

  (** urljoin: 539-605 *)
  Definition urljoin (base url : str) : res str :=
    if negb (str_truthy base) then Ok url
    else if negb (str_truthy url) then Ok base
    else
      do b <- urlparse base [] ;
      do u <- urlparse url (u_scheme b) ;
      if negb (str_eqb (u_scheme u) (u_scheme b)) || negb (str_mem (u_scheme u) uses_relative) then Ok url
      else if str_mem (u_scheme u) uses_netloc && str_truthy (u_netloc u) then Ok (urlunparse u)
      else
        let netloc := if str_mem (u_scheme u) uses_netloc then u_netloc b else u_netloc u in
        if negb (str_truthy (u_path u)) && negb (str_truthy (u_params u)) then
          Ok (urlunparse (mkParsed (u_scheme u) netloc (u_path b) (u_params b)
                            (if str_truthy (u_query u) then u_query u else u_query b) (u_fragment u)))
        else
          Ok (urlunparse (mkParsed (u_scheme u) netloc (resolved_path (join_segments (u_path b) (u_path u)))
                            (u_params u) (u_query u) (u_fragment u))).
End Urllib.
