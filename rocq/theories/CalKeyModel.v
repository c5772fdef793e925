(* Names of calendars: frm/utils/business_day_calendar.py *)
From Coq Require Import ZArith String List Bool.
From Verif Require Import Base Date BusDayModel.
Import ListNotations.
Open Scope string_scope.

(* A call of the holidays package: class, subdiv ("" when not given), whether categories has 'bank' beside 'public' *)
Record source := entry { s_class : string; s_subdiv : string; s_bank : bool }.

(* LOCALE_HOLIDAY, L74-118 *)
Definition locale_table : list (string * source) :=
  [("AE-DUBAI", entry "AE" "" false); ("AR-BUENOS_AIRES", entry "AR" "" false); ("AU-SYDNEY", entry "AU" "NSW" true);
   ("AU-MELBOURNE", entry "AU" "VIC" true); ("BR-SAO_PAULO", entry "BR" "SP" false); ("CA-TORONTO", entry "CA" "ON" false);
   ("CH-ZURICH", entry "CH" "ZH" false); ("CL-SANTIAGO", entry "CL" "RM" true); ("CN-SHANGHAI", entry "CN" "" false);
   ("CO-BOGOTA", entry "CO" "" false); ("CZ-PRAGUE", entry "CZ" "" false); ("DK-COPENHAGEN", entry "DK" "" false);
   ("DE-FRANKFURT", entry "DE" "HH" false); ("ES-MADRID", entry "ES" "MD" false); ("FR-PARIS", entry "FR" "" false);
   ("FI-HELSINKI", entry "FI" "" false); ("HK-HONG_KONG", entry "HK" "" false); ("HU-BUDAPEST", entry "HU" "" false);
   ("ID-JAKARTA", entry "ID" "" false); ("IN-MUMBAI", entry "IN" "MH" false); ("IL-TEL_AVIV", entry "IL" "" false);
   ("IS-REYKJAVIK", entry "IS" "" false); ("JP-TOYKO", entry "JP" "" false); ("MY-KUALA_LUMPUR", entry "MY" "KUL" false);
   ("MX-MEXICO_CITY", entry "MX" "" false); ("NO-OSLO", entry "NO" "" false); ("NZ-AUCKLAND", entry "NZ" "AUK" false);
   ("PL-WARSAW", entry "PL" "" false); ("PH-MANILA", entry "PH" "" false); ("RU-MOSCOW", entry "RU" "" false);
   ("SA-RIYADH", entry "SA" "" false); ("SE-STOCKHOLM", entry "SE" "" false); ("SG-SINGAPORE", entry "SG" "" false);
   ("TH-BANKCOK", entry "TH" "" true); ("TR-ISTANBUL", entry "TR" "" false); ("TW-TAPEI", entry "TW" "" false);
   ("UK-LONDON", entry "UK" "ENG" false); ("US-NEW_YORK", entry "US" "NY" false); ("VN-HO_CHI_MINH_CITY", entry "VN" "" false);
   ("ZA-JOHANNESBURG", entry "ZA" "" false); ("European_Central_Bank", entry "ECB" "" false); ("ICE_Futures_Europe", entry "IFEU" "" false);
   ("New_York_Stock_Exchange", entry "XNYS" "" false)].
(* CCY_HOLIDAY, L120-157 *)
Definition ccy_table : list (string * source) :=
  [("AED", entry "AE" "" false); ("ARS", entry "AR" "" false); ("AUD", entry "AU" "NSW" true);
   ("BRL", entry "BR" "SP" false); ("CAD", entry "CA" "ON" false); ("CHF", entry "CH" "ZH" false);
   ("CLP", entry "CL" "RM" true); ("CNY", entry "CN" "" false); ("COP", entry "CO" "" false);
   ("CZK", entry "CZ" "" false); ("DKK", entry "DK" "" false); ("HKD", entry "HK" "" false);
   ("HUF", entry "HU" "" false); ("IDR", entry "ID" "" false); ("INR", entry "IN" "MH" false);
   ("ILS", entry "IL" "" false); ("ISK", entry "IS" "" false); ("JPY", entry "JP" "" false);
   ("MYR", entry "MY" "KUL" false); ("MXN", entry "MX" "" false); ("NOK", entry "NO" "" false);
   ("NZD", entry "NZ" "AUK" false); ("PLN", entry "PL" "" false); ("PHP", entry "PH" "" false);
   ("RUB", entry "RU" "" false); ("SAR", entry "SA" "" false); ("SEK", entry "SE" "" false);
   ("SGD", entry "SG" "" false); ("THB", entry "TH" "" true); ("TRY", entry "TR" "" false);
   ("TWD", entry "TW" "" false); ("GBP", entry "UK" "ENG" false); ("USD", entry "US" "NY" false);
   ("VND", entry "VN" "" false); ("ZAR", entry "ZA" "" false); ("EUR", entry "ECB" "" false)].

Definition lookup (table : list (string * source)) (key : string) : option source := option_map snd (find (fun e => String.eqb (fst e) key) table).

Section Package.
(* pkg: the object the holidays package returns for a call with years 1990 to 2099, L71 *)
Variable pkg : source -> holiday_object.
(* the two dictionaries as pickled, L163-169, and loaded, L15-19 *)
Definition ccy_holiday (key : string) : option holiday_object := option_map pkg (lookup ccy_table key).
Definition locale_holiday (key : string) : option holiday_object := option_map pkg (lookup locale_table key).
Definition busdaycal (keys : keys_arg) : result calendar := get_busdaycal ccy_holiday locale_holiday keys.
(* keys that are neither None nor a str nor a list, such as a tuple or a set: used as they are, L52-58 *)
Definition busdaycal_of_iterable (keys : list string) : result calendar := build_calendar ccy_holiday locale_holiday keys.
End Package.
