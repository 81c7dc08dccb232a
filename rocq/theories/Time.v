(** * Time: integer scanning and calendar arithmetic of parser.c *)
From Verif Require Import Base.

(** parser.c 60-76 [hParseInt]: cursor and remaining length move together, so the cursor
    is the remaining text. [int] is 32 bits. *)
Fixpoint hParseInt_go (e : env) (i : Z) (t : text) : res (Z * text) :=
  match t with
  | c :: t' => if isdigit c
               then let* i' := acc10 e 32 i c in hParseInt_go e i' t'
               else Ok (i, t)
  | [] => Ok (i, t)
  end.
Definition hParseInt (e : env) (t : text) : res (Z * text) := hParseInt_go e 0 t.

Local Open Scope Z_scope.

(** parser.c 161-193 [yearInSecs]: last second of the years 1967 .. 2099. *)
Definition yearInSecs : list Z := [
  -63158401; -31536001; -1; 31535999; 63071999; 94694399; 126230399;
  157766399; 189302399; 220924799; 252460799; 283996799; 315532799;
  347155199; 378691199; 410227199; 441763199; 473385599; 504921599;
  536457599; 567993599; 599615999; 631151999; 662687999; 694223999;
  725846399; 757382399; 788918399; 820454399; 852076799; 883612799;
  915148799; 946684799; 978307199; 1009843199; 1041379199; 1072915199;
  1104537599; 1136073599; 1167609599; 1199145599; 1230767999;
  1262303999; 1293839999; 1325375999; 1356998399; 1388534399;
  1420070399; 1451606399; 1483228799; 1514764799; 1546300799;
  1577836799; 1609459199; 1640995199; 1672531199; 1704067199;
  1735689599; 1767225599; 1798761599; 1830297599; 1861919999;
  1893455999; 1924991999; 1956527999; 1988150399; 2019686399;
  2051222399; 2082758399; 2114380799; 2145916799; 2177452799;
  2208988799; 2240611199; 2272147199; 2303683199; 2335219199;
  2366841599; 2398377599; 2429913599; 2461449599; 2493071999;
  2524607999; 2556143999; 2587679999; 2619302399; 2650838399;
  2682374399; 2713910399; 2745532799; 2777068799; 2808604799;
  2840140799; 2871763199; 2903299199; 2934835199; 2966371199;
  2997993599; 3029529599; 3061065599; 3092601599; 3124223999;
  3155759999; 3187295999; 3218831999; 3250454399; 3281990399;
  3313526399; 3345062399; 3376684799; 3408220799; 3439756799;
  3471292799; 3502915199; 3534451199; 3565987199; 3597523199;
  3629145599; 3660681599; 3692217599; 3723753599; 3755375999;
  3786911999; 3818447999; 3849983999; 3881606399; 3913142399;
  3944678399; 3976214399; 4007836799; 4039372799; 4070908799;
  4102444799].

(** parser.c 233-276: the switch over the month. *)
Definition monthInDays (month : Z) : Z :=
  match month with
  | 1 => 0 | 2 => 31 | 3 => 59 | 4 => 90 | 5 => 120 | 6 => 151
  | 7 => 181 | 8 => 212 | 9 => 243 | 10 => 273 | 11 => 304 | 12 => 334
  | _ => 0
  end.

(** parser.c 215-306 [syslogTime2time_t]. The arithmetic is in long/time_t (64 bit) and
    cannot overflow for the values the callers pass, so unbounded Z is exact. The
    argument [ahead] is OffsetMode == '+'. The table access is checked. *)
Definition syslogTime2time_t (year month day hour minute second offh offm : Z) (ahead : bool) : res Z :=
  if (year <? 1970) || (year >? 2100) then Ok 0
  else
    let mid := monthInDays month in
    let mid := if ((negb (Z.rem year 100 =? 0) && (Z.rem year 4 =? 0)) || (year =? 2000))%bool
               then (if month >? 2 then mid + 1 else mid) else mid in
    let ny := year - 1967 - 1 in
    let nd := mid + day - 1 in
    match nth_error yearInSecs (Z.to_nat ny) with
    | None => Ub OobIndex
    | Some y =>
        let t := (y + 1) + nd * 86400 in
        let t := t + hour * 60 * 60 in
        let t := t + minute * 60 in
        let t := t + second in
        let off := offh * 3600 + offm * 60 in
        let off := if ahead then off * -1 else off in
        Ok (t + off)
    end.
