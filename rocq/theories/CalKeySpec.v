(* Vocabulary for names of calendars *)
From Coq Require Import ZArith String List Bool.
From Verif Require Import Base Date BusDayModel BusDaySpec CalKeyModel.
Import ListNotations.
Open Scope Z_scope.

(* weekends are days of the week, and some day of the week is a weekend nowhere *)
Definition plausible (pkg : source -> holiday_object) : Prop :=
  (forall s w, In w (weekend (pkg s)) -> 0 <= w <= 6) /\ exists w, 0 <= w <= 6 /\ forall s, ~ In w (weekend (pkg s)).
(* holidays are given for the years 1990 to 2099 only *)
Definition in_years (pkg : source -> holiday_object) : Prop := forall s d, In d (holiday_dates (pkg s)) -> mk 1990 1 1 <= d < mk 2100 1 1.
Definition all_names : list string := map fst ccy_table ++ map fst locale_table.
Definition mixed_case_names : list string := ["European_Central_Bank"; "ICE_Futures_Europe"; "New_York_Stock_Exchange"]%string.
(* the calendar of a key *)
Definition source_of (k : string) (s : source) : Prop := In (k, s) ccy_table \/ In (k, s) locale_table.
(* currencies and the places they are settled in *)
Definition centres : list (string * string) :=
  [("AED", "AE-DUBAI"); ("ARS", "AR-BUENOS_AIRES"); ("AUD", "AU-SYDNEY"); ("BRL", "BR-SAO_PAULO"); ("CAD", "CA-TORONTO");
   ("CHF", "CH-ZURICH"); ("CLP", "CL-SANTIAGO"); ("CNY", "CN-SHANGHAI"); ("COP", "CO-BOGOTA"); ("CZK", "CZ-PRAGUE");
   ("DKK", "DK-COPENHAGEN"); ("HKD", "HK-HONG_KONG"); ("HUF", "HU-BUDAPEST"); ("IDR", "ID-JAKARTA"); ("INR", "IN-MUMBAI");
   ("ILS", "IL-TEL_AVIV"); ("ISK", "IS-REYKJAVIK"); ("JPY", "JP-TOYKO"); ("MYR", "MY-KUALA_LUMPUR"); ("MXN", "MX-MEXICO_CITY");
   ("NOK", "NO-OSLO"); ("NZD", "NZ-AUCKLAND"); ("PLN", "PL-WARSAW"); ("PHP", "PH-MANILA"); ("RUB", "RU-MOSCOW");
   ("SAR", "SA-RIYADH"); ("SEK", "SE-STOCKHOLM"); ("SGD", "SG-SINGAPORE"); ("THB", "TH-BANKCOK"); ("TRY", "TR-ISTANBUL");
   ("TWD", "TW-TAPEI"); ("GBP", "UK-LONDON"); ("USD", "US-NEW_YORK"); ("VND", "VN-HO_CHI_MINH_CITY"); ("ZAR", "ZA-JOHANNESBURG")]%string.
(* places of no currency of their own *)
Definition other_places : list string := ["AU-MELBOURNE"; "DE-FRANKFURT"; "ES-MADRID"; "FR-PARIS"; "FI-HELSINKI"]%string.
(* places whose region has holidays of its own; Frankfurt is given Hamburg's *)
Definition regions : list (string * string) :=
  [("AU-SYDNEY", "NSW"); ("AU-MELBOURNE", "VIC"); ("BR-SAO_PAULO", "SP"); ("CA-TORONTO", "ON"); ("CH-ZURICH", "ZH");
   ("CL-SANTIAGO", "RM"); ("DE-FRANKFURT", "HH"); ("ES-MADRID", "MD"); ("IN-MUMBAI", "MH"); ("MY-KUALA_LUMPUR", "KUL");
   ("NZ-AUCKLAND", "AUK"); ("UK-LONDON", "ENG"); ("US-NEW_YORK", "NY")]%string.
(* countries whose bank holidays count *)
Definition bank_countries : list string := ["AU"; "CL"; "TH"]%string.
